(** What programs that use the ISPC Run Time (ispcrt) do on its two devices: the C API (ispcrt/ispcrt.cpp 717-760, 875-1110), the CPU
    device (ispcrt/detail/cpu/CPUDevice.cpp 31-103, 224-411) and the GPU device (ispcrt/detail/gpu/GPUDevice.cpp 316-369, 831-884,
    1203-1347, 1349-1401, 1507-1650).
    Simplifications: views do not share application memory; the commands of a list, and lists submitted to a command queue, are
    executed by the GPU in the order they were given (as with barriers between them, C68 is about task queues without); allocations
    succeed; the dimensions of launches belong to the kernel. *)
From Coq Require Import ZArith List Bool Arith.
Import ListNotations.

Definition bytes := list Z.
Definition memory := nat -> bytes.
Definition upd (m : memory) (v : nat) (b : bytes) : memory := fun w => if w =? v then b else m w.

(** Views made by ispcrtNewMemoryView: of application memory (ISPCRT_ALLOC_TYPE_DEVICE with a pointer), of device memory only (with a
    null pointer), of shared memory (ISPCRT_ALLOC_TYPE_SHARED with a null pointer). *)
Inductive kind := App | Dev | Shared.
Definition has_host (k : kind) : bool := match k with Dev => false | _ => true end.
Definition is_shared (k : kind) : bool := match k with Shared => true | _ => false end.

(** A kernel with its parameters and dimensions: the views it reads, those it writes, and what it writes. *)
Record kernel := Kernel { k_reads : list nat; k_writes : list nat; k_fun : memory -> memory }.

(** Commands of task queues and command lists. *)
Inductive cmd := ToDev (v : nat) | ToHost (v : nat) | Copy (dst src n : nat) | Launch (k : nat) | Barrier.

(** Programs: the host changes or reads the memory of a view that it can access, asks whether the future of the i-th command is
    valid; gives a command to a task queue (list 0) or to a command list (S l); submits a command list, waits for its fence, resets
    it; waits for the task queue. *)
Inductive op := Write (v : nat) (f : bytes -> bytes) | Read (v : nat) | Valid (i : nat)
  | Give (l : nat) (c : cmd) | Submit (l : nat) | Wait | Reset (l : nat) | Sync.
(** What users see. *)
Inductive event := Saw (v : nat) (b : bytes) | IsValid (i : nat) (b : bool) | Failed (c : cmd).

Section Devices.
Variable views : nat -> kind.
Variable size : nat -> nat.
Variable kernels : nat -> kernel.

Definition copied (n : nat) (src dst : bytes) : bytes := firstn n src ++ skipn n dst.
Definition launched (k : nat) (m : memory) : memory :=
  fun v => if existsb (Nat.eqb v) (k_writes (kernels k)) then k_fun (kernels k) m v else m v.
(** ispcrt.cpp 900-905, 1029-1034 *)
Definition too_big (c : cmd) : bool := match c with Copy d s n => (size d <? n) || (size s <? n) | _ => false end.

(** ** The CPU device.  Host and device pointers are the same (CPUDevice.cpp 64-90). *)
Record cpu := Cpu { c_mem : memory; c_futures : list bool; c_seen : list event }.
(** 232-276 and 362-400: copies between host and device do nothing, other commands are executed at once. *)
Definition cpu_do (c : cmd) (m : memory) : memory :=
  match c with
  | Copy d s n => upd m d (copied n (m s) (m d))
  | Launch k => launched k m
  | _ => m
  end.
Definition is_launch (c : cmd) : bool := match c with Launch _ => true | _ => false end.
Definition cpu_op (o : op) (s : cpu) : cpu :=
  match o with
  | Write v f => if has_host (views v) then Cpu (upd (c_mem s) v (f (c_mem s v))) (c_futures s) (c_seen s) else s
  | Read v => if has_host (views v) then Cpu (c_mem s) (c_futures s) (c_seen s ++ [Saw v (c_mem s v)]) else s
  | Valid i => Cpu (c_mem s) (c_futures s) (c_seen s ++ [IsValid i (nth i (c_futures s) false)])
  | Give _ c => if too_big c then Cpu (c_mem s) (c_futures s ++ [false]) (c_seen s ++ [Failed c])
                else Cpu (cpu_do c (c_mem s)) (c_futures s ++ [is_launch c]) (c_seen s)
  | Submit _ | Wait | Reset _ | Sync => s
  end.
Definition cpu_run (p : list op) (s : cpu) : cpu := fold_left (fun s o => cpu_op o s) p s.

(** ** The GPU device.  g_lists: the commands given to the task queue and the command lists, with their numbers; g_closed: command
    lists that were closed by submitting them; g_queue: what the command queue has still to do, with the command list. *)
Record gpu := Gpu { g_host : memory; g_dev : memory; g_lists : nat -> list (nat * cmd); g_closed : list nat; g_queue : list (nat * cmd);
  g_futures : list bool; g_seen : list event }.
(** hostPtr, GPUDevice.cpp 876 *)
Definition at_host (h d : memory) (v : nat) : bytes := if is_shared (views v) then d v else h v.
(** What the device does: 1224-1289 *)
Definition gpu_do (c : cmd) (hd : memory * memory) : memory * memory :=
  let '(h, d) := hd in
  match c with
  | ToDev v => (h, upd d v (at_host h d v))
  | ToHost v => if is_shared (views v) then (h, d) else (upd h v (d v), d)
  | Copy dst src n => (h, upd d dst (copied n (d src) (d dst)))
  | Launch k => (h, launched k d)
  | Barrier => (h, d)
  end.
Definition gpu_all (cs : list cmd) (hd : memory * memory) : memory * memory := fold_left (fun hd c => gpu_do c hd) cs hd.
(** Level Zero does not copy from or to null pointers. *)
Definition no_host (c : cmd) : bool := match c with ToDev v | ToHost v => negb (has_host (views v)) | _ => false end.
Definition set_list (ls : nat -> list (nat * cmd)) (l : nat) (cs : list (nat * cmd)) : nat -> list (nat * cmd) := fun k => if k =? l then cs else ls k.
Definition memn (i : nat) (l : list nat) : bool := existsb (Nat.eqb i) l.
(** 1647: f->m_valid = true *)
Fixpoint make_valid (cs : list (nat * cmd)) (fs : list bool) : list bool :=
  match cs with
  | [] => fs
  | (i, c) :: cs => make_valid cs (if is_launch c then firstn i fs ++ true :: skipn (S i) fs else fs)
  end.
(** None: undefined behaviour (a command is added to a closed list, a list is reset while the device works on it, the host uses a null
    pointer), or, for Wait, that it does not return now. *)
Definition gpu_op (o : op) (s : gpu) : option gpu :=
  match o with
  | Write v f =>
      match views v with
      | App => Some (Gpu (upd (g_host s) v (f (g_host s v))) (g_dev s) (g_lists s) (g_closed s) (g_queue s) (g_futures s) (g_seen s))
      | Shared => Some (Gpu (g_host s) (upd (g_dev s) v (f (g_dev s v))) (g_lists s) (g_closed s) (g_queue s) (g_futures s) (g_seen s))
      | Dev => None
      end
  | Read v => if has_host (views v)
              then Some (Gpu (g_host s) (g_dev s) (g_lists s) (g_closed s) (g_queue s) (g_futures s) (g_seen s ++ [Saw v (at_host (g_host s) (g_dev s) v)]))
              else None
  | Valid i => Some (Gpu (g_host s) (g_dev s) (g_lists s) (g_closed s) (g_queue s) (g_futures s) (g_seen s ++ [IsValid i (nth i (g_futures s) false)]))
  | Give l c =>
      if memn l (g_closed s) then None
      else if too_big c || no_host c
           then Some (Gpu (g_host s) (g_dev s) (g_lists s) (g_closed s) (g_queue s) (g_futures s ++ [false]) (g_seen s ++ [Failed c]))
           else Some (Gpu (g_host s) (g_dev s) (set_list (g_lists s) l (g_lists s l ++ [(length (g_futures s), c)])) (g_closed s) (g_queue s)
                        (g_futures s ++ [false]) (g_seen s))
  | Submit l => (* 1291-1306 *)
      Some (Gpu (g_host s) (g_dev s) (g_lists s) (S l :: g_closed s) (g_queue s ++ map (fun p => (S l, snd p)) (g_lists s (S l))) (g_futures s) (g_seen s))
  | Wait => match g_queue s with [] => Some s | _ => None end
  | Reset l => (* 1308-1313 *)
      if memn (S l) (map fst (g_queue s)) then None
      else Some (Gpu (g_host s) (g_dev s) (set_list (g_lists s) (S l) []) (filter (fun k => negb (k =? S l)) (g_closed s)) (g_queue s) (g_futures s) (g_seen s))
  | Sync => (* 1600-1650; the task queue has a command queue of its own *)
      let '(h, d) := gpu_all (map snd (g_lists s 0)) (g_host s, g_dev s) in
      Some (Gpu h d (set_list (g_lists s) 0 []) (g_closed s) (g_queue s) (make_valid (g_lists s 0) (g_futures s)) (g_seen s))
  end.
(** The device does the next command. *)
Definition gpu_step (s : gpu) : option gpu :=
  match g_queue s with
  | [] => None
  | (_, c) :: q => let '(h, d) := gpu_do c (g_host s, g_dev s) in Some (Gpu h d (g_lists s) (g_closed s) q (g_futures s) (g_seen s))
  end.
(** Executions of the program and the device together. *)
Inductive gpu_run : list op -> gpu -> gpu -> Prop :=
| R_end s : gpu_run [] s s
| R_op o p s s1 s2 : gpu_op o s = Some s1 -> gpu_run p s1 s2 -> gpu_run (o :: p) s s2
| R_dev p s s1 s2 : gpu_step s = Some s1 -> gpu_run p s1 s2 -> gpu_run p s s2.
End Devices.

(** The state before a program. *)
Definition cpu_start (m : memory) : cpu := Cpu m [] [].
Definition gpu_start (h d : memory) : gpu := Gpu h d (fun _ => []) [] [] [] [].
