(** Model of the pthreads task system, examples/common/tasksys.cpp (ISPC_USE_PTHREADS, the default
    on Linux), and of the way compiled ispc functions use it.

    Any number of worker and host threads are interleaved by a schedule; one step is one shared
    memory access or one section protected by taskSysMutex.  Simplifications:
    - pthread mutexes, semaphores and the __sync_* builtins work as specified, memory is
      sequentially consistent, and plain reads of shared words (numUnfinishedTasks, freeTaskGroups[i])
      are atomic; errors reported by the pthread functions (exit(1)) do not happen.
    - InitTaskSystem (626-688) has been run: the workers exist and wait.
    - AllocTaskInfo and the loop of ISPCLaunch that fills in TaskInfo structures (986-994) are one
      step: the structures are private to the launching function until they are pushed.
    - what functions compute is not modelled: a running function does any sequence of launches and
      syncs, for any task function and task counts, chosen by the schedule, and then returns.
    - memory for task arguments is in TaskMemModel; here the argument block of a launch is
      represented by the launch it was allocated for (the function activation and its number). *)
From Coq Require Import ZArith List Bool Arith.
Import ListNotations.
Open Scope Z_scope.

(** The data pointer of a launch: ctx.cpp LaunchInst 3993-4023 allocates a new block for every
    launch executed. *)
Definition data := (nat * nat)%type.

(** tasksys.cpp 144-160 *)
Record info := { i_func : nat; i_data : data; i_index : Z; i_c0 : Z; i_c1 : Z; i_c2 : Z }.

(** 150-153 *)
Definition task_count (x : info) : Z := i_c0 x * i_c1 x * i_c2 x.
Definition task_index0 (x : info) : Z := Z.rem (i_index x) (i_c0 x).
Definition task_index1 (x : info) : Z := Z.rem (Z.quot (i_index x) (i_c0 x)) (i_c1 x).
Definition task_index2 (x : info) : Z := Z.quot (i_index x) (i_c0 x * i_c1 x).

(** TaskGroupBase / TaskGroup 187-220, 360-386: nextTaskInfoIndex, taskInfo[][], waitingTasks,
    numUnfinishedTasks, inActiveList.  The chunked taskInfo array (256-274) is a map. *)
Record group := { g_next : Z; g_info : Z -> info; g_wait : list Z; g_unf : Z; g_in : bool }.

(** MAX_LAUNCHED_TASKS, 176 *)
Definition max_tasks : Z := 128 * 2 ^ 14.

(** MAX_FREE_TASK_GROUPS, 942 *)
Definition max_free : nat := 64.

(** A launch being executed: function and counts. *)
Record launch := { l_func : nat; l_c0 : Z; l_c1 : Z; l_c2 : Z }.

(** Where a function activation is. *)
Inductive pc :=
| PRun                                   (* in the function's own code *)
| PRead (l : launch) (i : nat)           (* AllocTaskGroup 945-956: about to read freeTaskGroups[i] *)
| PCas (l : launch) (i : nat) (g : nat)  (* it was g: about to compare-and-swap *)
| PFill (l : launch)                     (* ISPCLaunch 985: the group is known *)
| PPush (l : launch) (d : data) (base : Z)  (* TaskGroup::Launch 690: about to take the mutex *)
| PAdd (n : Z)                           (* 724: about to add to numUnfinishedTasks *)
| PPost (n : Z)                          (* 730: sem_post, n left *)
| PSync                                  (* TaskGroup::Sync 743: about to test numUnfinishedTasks *)
| PHelp                                  (* 753: about to take the mutex *)
| PDec (g : nat)                         (* a task of g runs in the frame above, or has just returned *)
| PPut (i : nat)                         (* FreeTaskGroup 958-971: after Reset, about to read freeTaskGroups[i] *)
| PPutCas (i : nat).                     (* it was null: about to compare-and-swap *)

(** A function activation: a number; the group, argument block and index of the task it executes,
    if it is a task; the function's launchGroupHandle; the number of launches it has executed. *)
Record act := { a_id : nat; a_task : option (nat * data * Z); a_handle : option nat; a_ln : nat; a_pc : pc }.

(** lTaskEntry 551-625 *)
Inductive wpc :=
| WWait                                  (* sem_wait *)
| WTake                                  (* about to take the mutex *)
| WDec (g : nat).                        (* as PDec *)

Inductive frame := FAct (a : act) | FWork (i : nat) (p : wpc).

Inductive event :=
| EvLaunch (d : data) (f : nat) (c0 c1 c2 : Z)             (* a launch statement is executed *)
| EvStart (x : info) (thread : nat) (ti tc : Z)            (* a task function is called with the fields of x,
                                                              threadIndex ti and threadCount tc *)
| EvEnd (d : data) (i : Z)                                 (* it returns *)
| EvSync (a : nat).                                        (* a sync in activation a is over *)

(** Threads are call stacks, innermost frame first.  s_log is newest first.  s_bad: a compare-and-swap
    in AllocTaskGroup failed because the slot held a different group. *)
Record st := {
  s_thr : list (list frame);
  s_grp : nat -> group;
  s_active : list nat;                   (* activeTaskGroups *)
  s_sem : Z;                             (* workerSemaphore *)
  s_free : list (option nat);            (* freeTaskGroups *)
  s_new : nat;                           (* groups allocated so far *)
  s_act : nat;                           (* activations so far *)
  s_workers : nat;                       (* nThreads *)
  s_log : list event;
  s_bad : bool
}.

(** Undef: an assertion fails, an empty vector is read, or a signed overflow.
    Exit: the message of GetTaskInfo 260-268. *)
Inductive result := Ok (s : st) | Undef | Exit.

(** What a running function does next. *)
Inductive choice := CCall | CLaunch (l : launch) | CSync | CReturn.

Fixpoint upd {A} (n : nat) (x : A) (l : list A) : list A :=
  match l, n with
  | [], _ => []
  | _ :: r, O => x :: r
  | y :: r, S n => y :: upd n x r
  end.

(** vector back() and pop_back() *)
Definition unsnoc {A} (l : list A) : option (list A * A) :=
  match rev l with [] => None | x :: r => Some (rev r, x) end.

(** erase(find(..)): None if it is not found *)
Fixpoint erase (g : nat) (l : list nat) : option (list nat) :=
  match l with
  | [] => None
  | x :: r => if Nat.eqb x g then Some r else option_map (cons x) (erase g r)
  end.

Definition set_pc (a : act) (p : pc) : act :=
  {| a_id := a_id a; a_task := a_task a; a_handle := a_handle a; a_ln := a_ln a; a_pc := p |}.
Definition set_handle (a : act) (h : option nat) (p : pc) : act :=
  {| a_id := a_id a; a_task := a_task a; a_handle := h; a_ln := a_ln a; a_pc := p |}.

Definition new_act (n : nat) (task : option (nat * data * Z)) : act :=
  {| a_id := n; a_task := task; a_handle := None; a_ln := 0; a_pc := PRun |}.

(** 223-239, 363-367 *)
Definition no_info : info := {| i_func := 0; i_data := (0, 0)%nat; i_index := 0; i_c0 := 1; i_c1 := 1; i_c2 := 1 |}.
Definition new_group : group :=
  {| g_next := 0; g_info := fun _ => no_info; g_wait := []; g_unf := 0; g_in := false |}.

Definition set_grp (s : st) (g : nat) (x : group) : nat -> group :=
  fun h => if Nat.eqb h g then x else s_grp s h.

Definition put (s : st) (t : nat) (fs : list frame) : st :=
  {| s_thr := upd t fs (s_thr s); s_grp := s_grp s; s_active := s_active s; s_sem := s_sem s; s_free := s_free s;
     s_new := s_new s; s_act := s_act s; s_workers := s_workers s; s_log := s_log s; s_bad := s_bad s |}.
Definition with_grp (s : st) (g : nat) (x : group) : st :=
  {| s_thr := s_thr s; s_grp := set_grp s g x; s_active := s_active s; s_sem := s_sem s; s_free := s_free s;
     s_new := s_new s; s_act := s_act s; s_workers := s_workers s; s_log := s_log s; s_bad := s_bad s |}.
Definition with_active (s : st) (l : list nat) : st :=
  {| s_thr := s_thr s; s_grp := s_grp s; s_active := l; s_sem := s_sem s; s_free := s_free s;
     s_new := s_new s; s_act := s_act s; s_workers := s_workers s; s_log := s_log s; s_bad := s_bad s |}.
Definition with_sem (s : st) (n : Z) : st :=
  {| s_thr := s_thr s; s_grp := s_grp s; s_active := s_active s; s_sem := n; s_free := s_free s;
     s_new := s_new s; s_act := s_act s; s_workers := s_workers s; s_log := s_log s; s_bad := s_bad s |}.
Definition with_free (s : st) (i : nat) (x : option nat) : st :=
  {| s_thr := s_thr s; s_grp := s_grp s; s_active := s_active s; s_sem := s_sem s; s_free := upd i x (s_free s);
     s_new := s_new s; s_act := s_act s; s_workers := s_workers s; s_log := s_log s; s_bad := s_bad s |}.
Definition with_new (s : st) : st :=
  {| s_thr := s_thr s; s_grp := set_grp s (s_new s) new_group; s_active := s_active s; s_sem := s_sem s; s_free := s_free s;
     s_new := S (s_new s); s_act := s_act s; s_workers := s_workers s; s_log := s_log s; s_bad := s_bad s |}.
Definition with_act (s : st) : st :=
  {| s_thr := s_thr s; s_grp := s_grp s; s_active := s_active s; s_sem := s_sem s; s_free := s_free s;
     s_new := s_new s; s_act := S (s_act s); s_workers := s_workers s; s_log := s_log s; s_bad := s_bad s |}.
Definition with_log (s : st) (e : event) : st :=
  {| s_thr := s_thr s; s_grp := s_grp s; s_active := s_active s; s_sem := s_sem s; s_free := s_free s;
     s_new := s_new s; s_act := s_act s; s_workers := s_workers s; s_log := e :: s_log s; s_bad := s_bad s |}.
Definition with_bad (s : st) : st :=
  {| s_thr := s_thr s; s_grp := s_grp s; s_active := s_active s; s_sem := s_sem s; s_free := s_free s;
     s_new := s_new s; s_act := s_act s; s_workers := s_workers s; s_log := s_log s; s_bad := true |}.

Definition set_wait (x : group) (w : list Z) (i : bool) : group :=
  {| g_next := g_next x; g_info := g_info x; g_wait := w; g_unf := g_unf x; g_in := i |}.
Definition set_unf (x : group) (n : Z) : group :=
  {| g_next := g_next x; g_info := g_info x; g_wait := g_wait x; g_unf := n; g_in := g_in x |}.

(** Reset 247-251 and 369-374 (its assertion is tested by the caller) *)
Definition reset (x : group) : group :=
  {| g_next := 0; g_info := g_info x; g_wait := g_wait x; g_unf := 0; g_in := g_in x |}.

(** 985-994: the TaskInfo structures of a launch *)
Definition fill (x : group) (l : launch) (d : data) (n : Z) : group :=
  {| g_next := g_next x + n;
     g_info := fun j => if (g_next x <=? j) && (j <? g_next x + n)
                        then {| i_func := l_func l; i_data := d; i_index := j - g_next x;
                                i_c0 := l_c0 l; i_c1 := l_c1 l; i_c2 := l_c2 l |}
                        else g_info x j;
     g_wait := g_wait x; g_unf := g_unf x; g_in := g_in x |}.

(** base, base + 1, ..., base + n - 1 *)
Definition range (base n : Z) : list Z := map (fun k => base + Z.of_nat k) (seq 0 (Z.to_nat n)).

Definition count_of (l : launch) : Z := l_c0 l * l_c1 l * l_c2 l.

(** The task number j of group g is called by thread t, whose other frames become fs. *)
Definition start (s : st) (t : nat) (fs : list frame) (g : nat) (j : Z) (ti tc : Z) : st :=
  let x := g_info (s_grp s g) j in
  with_act (with_log (put s t (FAct (new_act (s_act s) (Some (g, i_data x, i_index x))) :: fs)) (EvStart x t ti tc)).

(** The last group of activeTaskGroups, and its last waiting task: lTaskEntry 586-598, Sync 791-804. *)
Definition take_last (s : st) (t : nat) (fs : nat -> list frame) (ti tc : Z) : result :=
  match unsnoc (s_active s) with
  | None => Undef
  | Some (rest, g) =>
      match unsnoc (g_wait (s_grp s g)) with
      | None => Undef
      | Some (w, j) =>
          match w with
          | [] => Ok (start (with_active (with_grp s g (set_wait (s_grp s g) w false)) rest) t (fs g) g j ti tc)
          | _ => Ok (start (with_grp s g (set_wait (s_grp s g) w (g_in (s_grp s g)))) t (fs g) g j ti tc)
          end
      end
  end.

(** One step of the function activation [a], the innermost frame of thread [t]; [fs] are the
    thread's other frames. *)
Definition step_act (s : st) (t : nat) (a : act) (fs : list frame) (ch : choice) : result :=
  let to p := Ok (put s t (FAct (set_pc a p) :: fs)) in
  match a_pc a with
  | PRun =>
      match ch with
      | CCall => Ok s
      | CLaunch l =>
          (* ctx.cpp LaunchInst: ISPCAlloc and then ISPCLaunch; both start with 976-983 / 1008-1014 *)
          match a_handle a with
          | None => to (PRead l 0)
          | Some _ => to (PFill l)
          end
      | CSync =>
          (* ctx.cpp SyncInst 4042-4069 *)
          match a_handle a with
          | None => Ok (with_log s (EvSync (a_id a)))
          | Some _ => to PSync
          end
      | CReturn =>
          (* ctx.cpp ReturnInst: a function that has launched tasks syncs before it returns *)
          match a_handle a with
          | Some _ => to PSync
          | None =>
              match a_task a with
              | None => Ok (put s t fs)
              | Some (_, d, i) => Ok (with_log (put s t fs) (EvEnd d i))
              end
          end
      end
  | PRead l i =>
      if (i <? max_free)%nat then
        match nth i (s_free s) None with
        | None => to (PRead l (S i))
        | Some g => to (PCas l i g)
        end
      else Ok (put (with_new s) t (FAct (set_handle a (Some (s_new s)) (PFill l)) :: fs))
  | PCas l i g =>
      (* 949: the result of the compare-and-swap is the old content of the slot, and is used if it is not null *)
      match nth i (s_free s) None with
      | None => to (PRead l (S i))
      | Some h =>
          let s1 := if Nat.eqb h g then with_free s i None else with_bad s in
          Ok (put s1 t (FAct (set_handle a (Some h) (PFill l)) :: fs))
      end
  | PFill l =>
      match a_handle a with
      | None => Undef
      | Some g =>
          let n := count_of l in
          let x := s_grp s g in
          if (2 ^ 31 <=? n) || (n <? - 2 ^ 31) || (2 ^ 31 <=? g_next x + n) then Undef
          else if (0 <? n) && (max_tasks <? g_next x + n) then Exit
          else
            let d := (a_id a, a_ln a) in
            Ok (with_log
                  (put (with_grp s g (fill x l d n)) t
                     (FAct {| a_id := a_id a; a_task := a_task a; a_handle := a_handle a; a_ln := S (a_ln a);
                              a_pc := PPush l d (g_next x) |} :: fs))
                  (EvLaunch d (l_func l) (l_c0 l) (l_c1 l) (l_c2 l)))
      end
  | PPush l d base =>
      match a_handle a with
      | None => Undef
      | Some g =>
          let x := s_grp s g in
          let s1 := with_grp s g (set_wait x (g_wait x ++ range base (count_of l)) true) in
          let s2 := if g_in x then s1 else with_active s1 (s_active s ++ [g]) in
          Ok (put s2 t (FAct (set_pc a (PAdd (count_of l))) :: fs))
      end
  | PAdd n =>
      match a_handle a with
      | None => Undef
      | Some g =>
          let x := s_grp s g in
          Ok (put (with_grp s g (set_unf x (g_unf x + n))) t (FAct (set_pc a (PPost n)) :: fs))
      end
  | PPost n =>
      if 0 <? n then Ok (put (with_sem s (s_sem s + 1)) t (FAct (set_pc a (PPost (n - 1))) :: fs))
      else to PRun
  | PSync =>
      match a_handle a with
      | None => Undef
      | Some g =>
          let x := s_grp s g in
          if 0 <? g_unf x then to PHelp
          else if g_in x then Undef
          else Ok (with_log (put (with_grp s g (reset x)) t (FAct (set_pc a (PPut 0)) :: fs)) (EvSync (a_id a)))
      end
  | PHelp =>
      match a_handle a with
      | None => Undef
      | Some g =>
          let x := s_grp s g in
          match unsnoc (g_wait x) with
          | Some (w, j) =>
              match w with
              | [] =>
                  match erase g (s_active s) with
                  | None => Undef
                  | Some l =>
                      Ok (start (with_active (with_grp s g (set_wait x w false)) l) t (FAct (set_pc a (PDec g)) :: fs) g j 0 1)
                  end
              | _ => Ok (start (with_grp s g (set_wait x w (g_in x))) t (FAct (set_pc a (PDec g)) :: fs) g j 0 1)
              end
          | None =>
              match s_active s with
              | [] => to PSync
              | _ => take_last s t (fun h => FAct (set_pc a (PDec h)) :: fs) 0 1
              end
          end
      end
  | PDec g =>
      let x := s_grp s g in
      Ok (put (with_grp s g (set_unf x (g_unf x - 1))) t (FAct (set_pc a PSync) :: fs))
  | PPut i =>
      if (i <? max_free)%nat then
        match nth i (s_free s) None with
        | None => to (PPutCas i)
        | Some _ => to (PPut (S i))
        end
      else Ok (put s t (FAct (set_handle a None PRun) :: fs))
  | PPutCas i =>
      match nth i (s_free s) None with
      | None => Ok (put (with_free s i (a_handle a)) t (FAct (set_handle a None PRun) :: fs))
      | Some _ => to (PPut (S i))
      end
  end.

(** One step of the worker [i], thread [t]. *)
Definition step_work (s : st) (t i : nat) (p : wpc) (fs : list frame) : result :=
  match p with
  | WWait => if 0 <? s_sem s then Ok (put (with_sem s (s_sem s - 1)) t (FWork i WTake :: fs)) else Ok s
  | WTake =>
      match s_active s with
      | [] => Ok (put s t (FWork i WWait :: fs))
      | _ => take_last s t (fun g => FWork i (WDec g) :: fs) (Z.of_nat i) (Z.of_nat (s_workers s))
      end
  | WDec g =>
      let x := s_grp s g in
      Ok (put (with_grp s g (set_unf x (g_unf x - 1))) t (FWork i WWait :: fs))
  end.

(** A host thread that is not in ispc code may call an ispc function. *)
Definition step (s : st) (t : nat) (ch : choice) : result :=
  match nth_error (s_thr s) t with
  | None => Ok s
  | Some [] =>
      match ch with
      | CCall => Ok (with_act (put s t [FAct (new_act (s_act s) None)]))
      | _ => Ok s
      end
  | Some (FAct a :: fs) => step_act s t a fs ch
  | Some (FWork i p :: fs) => step_work s t i p fs
  end.

(** [w] worker threads and [h] host threads. *)
Definition init (w h : nat) : st :=
  {| s_thr := map (fun i => [FWork i WWait]) (seq 0 w) ++ repeat [] h;
     s_grp := fun _ => new_group; s_active := []; s_sem := 0; s_free := repeat None max_free;
     s_new := 0; s_act := 0; s_workers := w; s_log := []; s_bad := false |}.

Fixpoint run (sched : list (nat * choice)) (s : st) : result :=
  match sched with
  | [] => Ok s
  | (t, ch) :: r => match step s t ch with Ok s1 => run r s1 | x => x end
  end.
