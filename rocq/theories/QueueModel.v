(** The task queue of the GPU runtime (ispcrt/detail/gpu/GPUDevice.cpp 346-610, 1424-1720): commands are put in up to three command
    lists with events between them, given to one or two hardware queues by sync, and executed by the device in some order. *)
From Coq Require Import List Bool Arith.
Import ListNotations.

(** What users ask for: ispcrtCopyToDevice, ispcrtCopyToHost, ispcrtCopyMemoryView, ispcrtLaunch1D/2D/3D, ispcrtDeviceBarrier;
    m, dst, src: memory views, k: a kernel with its parameters. *)
Inductive what := ToDev (m : nat) | ToHost (m : nat) | CopyDev (dst src : nat) | Launch (k : nat) | Barrier.
Definition is_barrier (o : what) : bool := match o with Barrier => true | _ => false end.
Definition is_compute (o : what) : bool := match o with CopyDev _ _ | Launch _ => true | _ => false end.
Definition is_todev (o : what) : bool := match o with ToDev _ => true | _ => false end.
Definition is_tohost (o : what) : bool := match o with ToHost _ => true | _ => false end.
Inductive lst := H2D | COMP | D2H.
Definition lst_eqb (a b : lst) : bool := match a, b with H2D, H2D | COMP, COMP | D2H, D2H => true | _, _ => false end.
(** Events of the two pools, by index (380-425). *)
Inductive ev := CopyEv (i : nat) | CompEv (i : nat).
Definition ev_eqb (a b : ev) : bool := match a, b with CopyEv i, CopyEv j | CompEv i, CompEv j => i =? j | _, _ => false end.
(** A command in a list; c_id: the number of the call. *)
Record cmd := Cmd { c_id : nat; c_what : what; c_list : lst; c_signal : option ev; c_waits : list ev }.
(** The constructor (1426-1489): several command lists, a copy engine, and the sizes of the event pools
    (ISPCRT_MAX_KERNEL_LAUNCHES and POOL_SIZE_CAP). *)
Record cfg := Cfg { multi : bool; engine : bool; max_launches : nat; max_copies : nat }.
(** Misused: a command list is reset while the device works on it. *)
Inductive phase := Idle | Syncing | Misused.
(** s_free, s_cfree: the free lists of the event pools; s_cpool: copy events made so far; s_cmds: the commands in the lists, in the
    order of the calls; s_copy: the events of the list of copies to the device; s_comp: m_events_compute_list, the future is named
    by the call; s_sub: what the hardware queues have; s_valid: futures that are valid. *)
Record sys := Sys { s_phase : phase; s_free : list nat; s_cfree : list nat; s_cpool : list nat; s_cmds : list cmd; s_copy : list ev; s_comp : list (nat * nat);
  s_next : nat; s_sub : list cmd; s_started : list nat; s_ran : list nat; s_done : list nat; s_sig : list ev; s_valid : list nat }.
Definition init (g : cfg) : sys := Sys Idle (seq 0 (max_launches g)) (seq 0 (max_copies g)) [] [] [] [] 0 [] [] [] [] [] [].
(** What happens: a call that returns, a call that throws, the beginning and the end of sync, and steps of the device. *)
Inductive label := Do (o : what) | Fail (o : what) | SyncStart | SyncEnd | Start (id : nat) | Effect (id : nat) | Finish (id : nat).

Definition memn (i : nat) (l : list nat) : bool := existsb (Nat.eqb i) l.
Definition meme (e : ev) (l : list ev) : bool := existsb (ev_eqb e) l.
Definition dele (e : ev) (l : list ev) : list ev := filter (fun x => negb (ev_eqb e x)) l.
(** 1471-1478: with one command list the three names are one. *)
Definition place (g : cfg) (l : lst) : lst := if multi g then l else COMP.
(** getEvent (575-599): the first event that is ready is used again, otherwise a new one is made.  The index, the free list, the
    events made, and the events that are signalled. *)
Definition get_copy (s : sys) : option (nat * list nat * list nat * list ev) :=
  match find (fun i => meme (CopyEv i) (s_sig s)) (s_cpool s) with
  | Some i => Some (i, s_cfree s, s_cpool s, dele (CopyEv i) (s_sig s))
  | None => match s_cfree s with [] => None | i :: r => Some (i, r, s_cpool s ++ [i], s_sig s) end
  end.
Definition add_cmd (s : sys) (free cfree cpool : list nat) (sig : list ev) (copy : list ev) (comp : list (nat * nat)) (c : cmd) : sys :=
  Sys (s_phase s) free cfree cpool (s_cmds s ++ [c]) copy comp (S (s_next s)) (s_sub s) (s_started s) (s_ran s) (s_done s) sig (s_valid s).
(** 1507-1604.  None: an exception. *)
Definition call (g : cfg) (s : sys) (o : what) : option sys :=
  let id := s_next s in
  match o with
  | Barrier => Some (add_cmd s (s_free s) (s_cfree s) (s_cpool s) (s_sig s) (s_copy s) (s_comp s) (Cmd id o COMP None []))
  | ToHost _ => Some (add_cmd s (s_free s) (s_cfree s) (s_cpool s) (s_sig s) (s_copy s) (s_comp s)
                        (Cmd id o (place g D2H) None (map (fun p => CompEv (fst p)) (s_comp s))))
  | ToDev _ => match get_copy s with
               | Some (i, cfree, cpool, sig) =>
                   Some (add_cmd s (s_free s) cfree cpool sig (s_copy s ++ [CopyEv i]) (s_comp s) (Cmd id o (place g H2D) (Some (CopyEv i)) []))
               | None => None
               end
  | CopyDev _ _ => match s_free s with
                   | i :: free => Some (add_cmd s free (s_cfree s) (s_cpool s) (s_sig s) (s_copy s) (s_comp s ++ [(i, id)]) (Cmd id o COMP (Some (CompEv i)) []))
                   | [] => None
                   end
  | Launch _ => match s_free s with
                | i :: free => Some (add_cmd s free (s_cfree s) (s_cpool s) (s_sig s) (s_copy s) (s_comp s ++ [(i, id)]) (Cmd id o COMP (Some (CompEv i)) (s_copy s)))
                | [] => None
                end
  end.
(** submit (447-453, 1699-1703): lists with no commands are not submitted; barriers are not counted (1505). *)
Definition counted (l : lst) (cs : list cmd) : bool := existsb (fun c => lst_eqb (c_list c) l && negb (is_barrier (c_what c))) cs.
Definition in_list (l : lst) (cs : list cmd) : list cmd := if counted l cs then filter (fun c => lst_eqb (c_list c) l) cs else [].
Definition submitted (cs : list cmd) : list cmd := in_list H2D cs ++ in_list COMP cs ++ in_list D2H cs.
(** Do the two lists go to the same hardware queue? *)
Definition same_queue (g : cfg) (a b : lst) : bool := negb (engine g) || Bool.eqb (lst_eqb a COMP) (lst_eqb b COMP).
Definition finished (s : sys) (c : cmd) : bool := memn (c_id c) (s_done s).
(** sync (1606-1634): the hardware queue that is waited for. *)
Definition waited (g : cfg) (s : sys) : list cmd :=
  if engine g then
    if counted D2H (s_cmds s) then filter (fun c => negb (lst_eqb (c_list c) COMP)) (s_sub s)
    else if negb (length (s_comp s) =? 0) then filter (fun c => lst_eqb (c_list c) COMP) (s_sub s)
    else if counted H2D (s_cmds s) then filter (fun c => negb (lst_eqb (c_list c) COMP)) (s_sub s) else []
  else s_sub s.
(** sync (1635-1662): lists without commands are not reset; the events of kernels go back to the pool, the futures become valid. *)
Definition after_sync (s : sys) : sys :=
  Sys Idle (s_free s ++ map fst (s_comp s)) (s_cfree s) (s_cpool s) (filter (fun c => negb (counted (c_list c) (s_cmds s))) (s_cmds s)) [] []
      (s_next s) [] (s_started s) (s_ran s) (s_done s) (filter (fun e => negb (meme e (map (fun p => CompEv (fst p)) (s_comp s)))) (s_sig s)) (map snd (s_comp s) ++ s_valid s).
Fixpoint before (id : nat) (cs : list cmd) : list cmd :=
  match cs with [] => [] | c :: cs => if c_id c =? id then [] else c :: before id cs end.
(** When the device may begin a command: its events are signalled, and barriers are respected.  strict: commands of a hardware queue
    are executed one after the other. *)
Definition may_start (g : cfg) (strict : bool) (s : sys) (c : cmd) : bool :=
  forallb (fun e => meme e (s_sig s)) (c_waits c) &&
  forallb (fun a => implb ((lst_eqb (c_list a) (c_list c) && (is_barrier (c_what a) || is_barrier (c_what c))) || (strict && same_queue g (c_list a) (c_list c))) (finished s a))
    (before (c_id c) (s_sub s)).
Definition with_phase (s : sys) (p : phase) (sub : list cmd) : sys :=
  Sys p (s_free s) (s_cfree s) (s_cpool s) (s_cmds s) (s_copy s) (s_comp s) (s_next s) sub (s_started s) (s_ran s) (s_done s) (s_sig s) (s_valid s).
Definition with_dev (s : sys) (started ran done : list nat) (sig : list ev) : sys :=
  Sys (s_phase s) (s_free s) (s_cfree s) (s_cpool s) (s_cmds s) (s_copy s) (s_comp s) (s_next s) (s_sub s) started ran done sig (s_valid s).
(** None: it cannot happen. *)
Definition step (g : cfg) (strict : bool) (s : sys) (l : label) : option sys :=
  match l, s_phase s with
  | Do o, Idle => call g s o
  | Fail o, Idle => match call g s o with None => Some s | Some _ => None end
  | SyncStart, Idle => Some (with_phase s Syncing (submitted (s_cmds s)))
  | SyncEnd, Syncing =>
      if forallb (finished s) (waited g s) then
        if forallb (fun c => is_barrier (c_what c) || finished s c) (s_sub s) then Some (after_sync s) else Some (with_phase s Misused (s_sub s))
      else None
  | Start id, _ => match find (fun c => c_id c =? id) (s_sub s) with
                   | Some c => if negb (memn id (s_started s)) && may_start g strict s c then Some (with_dev s (id :: s_started s) (s_ran s) (s_done s) (s_sig s)) else None
                   | None => None
                   end
  | Effect id, _ => match find (fun c => c_id c =? id) (s_sub s) with
                    | Some c => if memn id (s_started s) && negb (memn id (s_ran s)) then Some (with_dev s (s_started s) (id :: s_ran s) (s_done s) (s_sig s)) else None
                    | None => None
                    end
  | Finish id, _ => match find (fun c => c_id c =? id) (s_sub s) with
                    | Some c => if memn id (s_ran s) && negb (memn id (s_done s)) then
                                  Some (with_dev s (s_started s) (s_ran s) (id :: s_done s) (match c_signal c with Some e => e :: s_sig s | None => s_sig s end))
                                else None
                    | None => None
                    end
  | _, _ => None
  end.
Fixpoint run (g : cfg) (strict : bool) (s : sys) (ls : list label) : option sys :=
  match ls with [] => Some s | l :: ls => match step g strict s l with Some s => run g strict s ls | None => None end end.

(** ** Times of futures (1639-1656) *)
(** Timestamps have b valid bits; 64-bit arithmetic. *)
From Coq Require Import ZArith.
Definition max_value (b : Z) : Z := (if b <? 64 then 2 ^ b - 1 else 2 ^ 64 - 1)%Z.
Definition future_time (b res st en : Z) : Z :=
  (let t := if st <=? en then (en - st) mod 2 ^ 64 else ((max_value b - st) + en + 1) mod 2 ^ 64 in (t * res) mod 2 ^ 64)%Z.
(** ** Sizes of launches (1567-1582) *)
(** The number of invocations in one dimension; suggested: what the driver suggests. *)
Definition invocations (dim suggested : Z) : Z := (let d := dim mod 2 ^ 32 in let g := Z.max suggested 1 in d / g * g)%Z.
