(** Lifetime of the objects of the ISPC Run Time (ispcrt) with the CPU device: the reference counter
    (ispcrt/detail/IntrusivePtr.h 13-40), the C API (ispcrt/ispcrt.cpp 515-531, 700-1100), the objects of
    the CPU device (ispcrt/detail/cpu/CPUDevice.cpp 30-480), the C++ wrappers (ispcrt/ispcrt.hpp 20-103)
    and IntrusivePtr (ispcrt/detail/IntrusivePtr.h 46-126). *)
From Coq Require Import ZArith List Bool.
Import ListNotations.
Open Scope Z_scope.

(** The classes of CPUDevice.cpp (Future 31, Fence 45, MemoryView 63, ModuleOptions 105, Module 126,
    Kernel 197, CommandListImpl 224, CommandQueueImpl 322, TaskQueue 352, CPUDevice, CPUContext) *)
Inductive kind := KDevice | KContext | KView | KOptions | KModule | KKernel | KList | KQueue | KTaskQueue | KFuture | KFence.

Definition kind_eqb (a b : kind) : bool :=
  match a, b with
  | KDevice, KDevice | KContext, KContext | KView, KView | KOptions, KOptions | KModule, KModule
  | KKernel, KKernel | KList, KList | KQueue, KQueue | KTaskQueue, KTaskQueue | KFuture, KFuture
  | KFence, KFence => true
  | _, _ => false
  end.

(** An object: its reference counter, whether its memory was given back, and the members that refer to
    other objects: m_libs (194), m_module (220), m_futures (303 and 410), m_fences (304), m_cmdlists (339).
    Simplification: the memory a MemoryView allocates for itself (92-98) and frees in its destructor
    (67-70) is part of the object. *)
Record obj := { o_kind : kind; o_count : Z; o_freed : bool; o_libs : list nat; o_module : option nat;
                o_fences : list nat; o_futures : list nat; o_lists : list nat }.

(** The memory: the address of an object is a number, handed out in order and never reused; r_dl is the
    number of times the dynamic loader was asked to open a library less the number of times it was asked
    to close it. *)
Record rt := { r_obj : nat -> obj; r_next : nat; r_dl : nat -> Z }.

(** Crash: undefined behaviour (access to freed memory, null dereference, wrong type of handle, closing or
    searching a library that is closed). *)
Inductive res (A : Type) := Ok (a : A) | Crash.
Arguments Ok {A}. Arguments Crash {A}.
Definition bind {A B} (r : res A) (f : A -> res B) : res B := match r with Ok a => f a | Crash => Crash end.

Definition upd {A} (f : nat -> A) (x : nat) (a : A) : nat -> A := fun y => if Nat.eqb y x then a else f y.

(** [refCounter{1}] (IntrusivePtr.h 28) *)
Definition blank (k : kind) : obj :=
  {| o_kind := k; o_count := 1; o_freed := false; o_libs := []; o_module := None; o_fences := []; o_futures := []; o_lists := [] |}.
Definition rt0 : rt := {| r_obj := fun _ => blank KDevice; r_next := 0; r_dl := fun _ => 0 |}.

Definition set_obj (st : rt) (x : nat) (o : obj) : rt := {| r_obj := upd (r_obj st) x o; r_next := r_next st; r_dl := r_dl st |}.
Definition alive (st : rt) (x : nat) : bool := Nat.ltb x (r_next st) && negb (o_freed (r_obj st x)).
(** the cast of a handle to a class, referenceFromHandle, ispcrt.cpp 47-50 *)
Definition is_a (st : rt) (k : kind) (x : nat) : bool := alive st x && kind_eqb (o_kind (r_obj st x)) k.

Definition with_count (o : obj) (c : Z) : obj :=
  {| o_kind := o_kind o; o_count := c; o_freed := o_freed o; o_libs := o_libs o; o_module := o_module o;
     o_fences := o_fences o; o_futures := o_futures o; o_lists := o_lists o |}.
Definition with_freed (o : obj) : obj :=
  {| o_kind := o_kind o; o_count := o_count o; o_freed := true; o_libs := o_libs o; o_module := o_module o;
     o_fences := o_fences o; o_futures := o_futures o; o_lists := o_lists o |}.
Definition with_work (o : obj) (fences futures lists : list nat) : obj :=
  {| o_kind := o_kind o; o_count := o_count o; o_freed := o_freed o; o_libs := o_libs o; o_module := o_module o;
     o_fences := fences; o_futures := futures; o_lists := lists |}.

(** RefCounted::refInc, IntrusivePtr.h 33 *)
Definition ref_inc (x : nat) (st : rt) : res rt :=
  if alive st x then Ok (set_obj st x (with_count (r_obj st x) (o_count (r_obj st x) + 1))) else Crash.

Fixpoint each (f : nat -> rt -> res rt) (l : list nat) (st : rt) : res rt :=
  match l with [] => Ok st | x :: l => bind (f x st) (each f l) end.

(** dlclose, CPUDevice.cpp 166 *)
Definition dl_close (lib : nat) (st : rt) : res rt :=
  if 0 <? r_dl st lib then Ok {| r_obj := r_obj st; r_next := r_next st; r_dl := upd (r_dl st) lib (r_dl st lib - 1) |} else Crash.

(** [delete f] for a Future (CPUDevice.cpp 358), whatever its counter *)
Definition delete_future (x : nat) (st : rt) : res rt :=
  if alive st x then Ok (set_obj st x (with_freed (r_obj st x))) else Crash.

Definition opt_list {A} (o : option A) : list A := match o with Some a => [a] | None => [] end.

(** RefCounted::refDec, IntrusivePtr.h 35-38: [if ((--refCounter) == 0) delete this], with the destructors
    of Module (158-171), Kernel (211-214), CommandListImpl (226-229, clearFences 306-313, clearFutures
    315-322), CommandQueueImpl (326, 341-348) and TaskQueue (356-361).  The memory is marked freed before
    the destructor's statements, so that these may not use the object through a handle.  [fuel] bounds the
    nesting of destructors; running out of it is a crash here and is shown not to happen. *)
Fixpoint ref_dec (fuel : nat) (x : nat) (st : rt) : res rt :=
  match fuel with
  | O => Crash
  | S fuel =>
      if alive st x then
        let o := r_obj st x in
        let c := o_count o - 1 in
        if c =? 0 then
          let st := set_obj st x (with_freed (with_count o c)) in
          match o_kind o with
          | KModule => each dl_close (o_libs o) st
          | KKernel => each (ref_dec fuel) (opt_list (o_module o)) st
          | KList => bind (each (ref_dec fuel) (o_fences o) st) (each (ref_dec fuel) (o_futures o))
          | KQueue => each (ref_dec fuel) (o_lists o) st
          | KTaskQueue => each delete_future (o_futures o) st
          | _ => Ok st
          end
        else Ok (set_obj st x (with_count o c))
      else Crash
  end.

(** nesting: queue, command list, future *)
Definition nesting : nat := 3.
Definition release (x : nat) (st : rt) : res rt := ref_dec nesting x st.

(** [new T(...)] *)
Definition create (o : obj) (st : rt) : rt * nat :=
  ({| r_obj := upd (r_obj st) (r_next st) o; r_next := S (r_next st); r_dl := r_dl st |}, r_next st).

(** dlopen, CPUDevice.cpp 142 *)
Definition dl_open (lib : nat) (st : rt) : rt :=
  {| r_obj := r_obj st; r_next := r_next st; r_dl := upd (r_dl st) lib (r_dl st lib + 1) |}.

(** The functions of the C API.  Handles are addresses.  [found]: whether the dynamic loader finds the
    library or the symbol; [lib]: the library of the module, None for the empty name (CPUDevice.cpp 128);
    [fits]: the sizes pass the tests at ispcrt.cpp 880-885.  Query stands for every function that only
    reads or writes plain members of an object of the given class (ispcrtSize, ispcrtFutureIsValid,
    ispcrtFenceSync, ispcrtCommandListClose, ...). *)
Inductive op :=
| NewDevice | NewContext
| NewView (d : nat) | NewViewForContext (c : nat) | NewOptions (d : nat)
| LoadModule (d : nat) (lib : option nat) (found : bool)
| LoadModuleWithOptions (d : nat) (lib : option nat) (found : bool) (opts : nat)
| StaticLink (d : nat) (ms : list nat)
| NewKernel (d m : nat) (found : bool)
| NewQueue (d : nat) | NewTaskQueue (d : nat)
| CreateList (q : nat)
| ListCopy (l v : nat) | ListCopyViews (l v1 v2 : nat) (fits : bool)
| ListLaunch (l k : nat) (params : option nat)
| Submit (l : nat) | ListReset (l : nat)
| QueueLaunch (q k : nat) (params : option nat)
| QueueCopyViews (q v1 v2 : nat)
| FunctionPtr (m : nat) (found : bool)
| Query (k : kind) (x : nat)
| Retain (x : nat) | Release (x : nat).

Definition need (b : bool) {A} (r : res A) : res A := if b then r else Crash.
Definition with_handle (p : rt * nat) : res (rt * option nat) := Ok (fst p, Some (snd p)).

Definition params_ok (st : rt) (p : option nat) : bool := match p with Some v => is_a st KView v | None => true end.

(** dlsym on every library of the module, CPUDevice.cpp 173-186 (simplification: the search goes on after
    the symbol is found) *)
Definition libs_open (st : rt) (libs : list nat) : bool := forallb (fun lib => 0 <? r_dl st lib) libs.

(** the code of a kernel is in the libraries of its module, CPUDevice.cpp 202-208 *)
Definition kernel_code (st : rt) (k : nat) : bool :=
  match o_module (r_obj st k) with Some m => libs_open st (o_libs (r_obj st m)) | None => true end.

(** the constructor of cpu::Module from a file name, 127-147 *)
Definition load_module (lib : option nat) (found : bool) (st : rt) : rt * option nat :=
  match lib with
  | None => let p := create (blank KModule) st in (fst p, Some (snd p))
  | Some lib =>
      if found then
        let o := {| o_kind := KModule; o_count := 1; o_freed := false; o_libs := [lib]; o_module := None;
                    o_fences := []; o_futures := []; o_lists := [] |} in
        let p := create o (dl_open lib st) in (fst p, Some (snd p))
      else (st, None)
  end.

(** [m_futures.push_back(f)], 233-280 and 393 *)
Definition add_future (st : rt) (l : nat) : res (rt * option nat) :=
  let p := create (blank KFuture) st in
  let o := r_obj st l in
  Ok (set_obj (fst p) l (with_work o (o_fences o) (o_futures o ++ [snd p]) (o_lists o)), Some (snd p)).

Definition step (o : op) (st : rt) : res (rt * option nat) :=
  match o with
  | NewDevice => with_handle (create (blank KDevice) st)                            (* 536-600 *)
  | NewContext => with_handle (create (blank KContext) st)                          (* 665-710 *)
  | NewView d => need (is_a st KDevice d) (with_handle (create (blank KView) st))   (* 716-724, 422-425 *)
  | NewViewForContext c => need (is_a st KContext c) (with_handle (create (blank KView) st))
  | NewOptions d => need (is_a st KDevice d) (with_handle (create (blank KOptions) st))
  | LoadModule d lib found =>                                                       (* ispcrt.cpp 828-836 *)
      need (is_a st KDevice d)
        (let p := create (blank KOptions) st in
         let q := load_module lib found (fst p) in
         bind (release (snd p) (fst q)) (fun st => Ok (st, snd q)))
  | LoadModuleWithOptions d lib found opts =>                                       (* 838-844 *)
      need (is_a st KDevice d && is_a st KOptions opts) (Ok (load_module lib found st))
  | StaticLink d ms =>                                                              (* 852-857, 149-156 *)
      need (is_a st KDevice d && forallb (is_a st KModule) ms)
        (with_handle (create {| o_kind := KModule; o_count := 1; o_freed := false;
                                o_libs := flat_map (fun m => o_libs (r_obj st m)) ms; o_module := None;
                                o_fences := []; o_futures := []; o_lists := [] |} st))
  | NewKernel d m found =>                                                          (* 865-870, 198-209 *)
      need (is_a st KDevice d && is_a st KModule m && libs_open st (o_libs (r_obj st m)))
        (if found then
           let p := create {| o_kind := KKernel; o_count := 1; o_freed := false; o_libs := []; o_module := Some m;
                              o_fences := []; o_futures := []; o_lists := [] |} st in
           bind (ref_inc m (fst p)) (fun st => Ok (st, Some (snd p)))
         else Ok (st, None))
  | NewQueue d => need (is_a st KDevice d) (with_handle (create (blank KQueue) st))
  | NewTaskQueue d => need (is_a st KDevice d) (with_handle (create (blank KTaskQueue) st))
  | CreateList q =>                                                                 (* 328-332 *)
      need (is_a st KQueue q)
        (let p := create (blank KList) st in
         let o := r_obj st q in
         Ok (set_obj (fst p) q (with_work o (o_fences o) (o_futures o) (o_lists o ++ [snd p])), Some (snd p)))
  | ListCopy l v => need (is_a st KList l && is_a st KView v) (add_future st l)      (* 233-243 *)
  | ListCopyViews l v1 v2 fits =>                                                   (* 876-888, 245-253 *)
      need (is_a st KList l && is_a st KView v1 && is_a st KView v2)
        (if fits then add_future st l else Ok (st, None))
  | ListLaunch l k p =>                                                             (* 906-918, 255-278 *)
      need (is_a st KList l && is_a st KKernel k && params_ok st p && kernel_code st k) (add_future st l)
  | Submit l =>                                                                     (* 282-286 *)
      need (is_a st KList l)
        (let p := create (blank KFence) st in
         let o := r_obj st l in
         Ok (set_obj (fst p) l (with_work o (o_fences o ++ [snd p]) (o_futures o) (o_lists o)), Some (snd p)))
  | ListReset l =>                                                                  (* 288-291, 306-322 *)
      need (is_a st KList l)
        (let o := r_obj st l in
         bind (each release (o_fences o) st) (fun st =>
         bind (each release (o_futures o) st) (fun st =>
         let o := r_obj st l in
         Ok (set_obj st l (with_work o [] [] (o_lists o)), None))))
  | QueueLaunch q k p =>                                                            (* 383-403 *)
      need (is_a st KTaskQueue q && is_a st KKernel k && params_ok st p && kernel_code st k) (add_future st q)
  | QueueCopyViews q v1 v2 => need (is_a st KTaskQueue q && is_a st KView v1 && is_a st KView v2) (Ok (st, None))
  | FunctionPtr m _ => need (is_a st KModule m && libs_open st (o_libs (r_obj st m))) (Ok (st, None))
  | Query k x => need (is_a st k x) (Ok (st, None))
  | Retain x => bind (ref_inc x st) (fun st => Ok (st, None))                        (* 527-530 *)
  | Release x => bind (release x st) (fun st => Ok (st, None))                       (* 521-524 *)
  end.

(** ispcrtUseCount, 515-518 *)
Definition use_count (st : rt) (x : nat) : res Z := if alive st x then Ok (o_count (r_obj st x)) else Crash.

(** A run of the program, with the calls and the handles they returned, latest first. *)
Definition hist := list (op * option nat).
Fixpoint run (ops : list op) (st : rt) (h : hist) : res (rt * hist) :=
  match ops with
  | [] => Ok (st, h)
  | o :: ops => bind (step o st) (fun p => run ops (fst p) ((o, snd p) :: h))
  end.

(** *** C++ wrappers *)

(** A variable of a wrapper class: None when it does not exist, Some None when m_handle is null
    (ispcrt.hpp 38). *)
Definition vars := nat -> option (option nat).
Definition vars0 : vars := fun _ => None.

(** a call with the handles of wrappers in place of handles *)
Definition handle (e : vars) (v : nat) : option nat := match e v with Some h => h | None => None end.

(** - VNew v o: a constructor that makes the call [o] and keeps its result (Device 180-190, Context 150,
      Array 311-390, ModuleOptions 473-480, Module 514-519, Kernel 543, CommandQueue 676, TaskQueue 725)
    - VShare v o: Future, Fence, CommandList from the result of the call [o] (96-99, 120-123, 600-603)
    - VCall o: a member function without a result
    - VCopy v w, VMove v w: copy and move constructors (50-58)
    - VAssign v w, VMoveAssign v w: assignments (60-72)
    - VEnd v: the destructor (45-48)
    The arguments of [o] are the handles m_handle of variables that exist. *)
Inductive vop :=
| VNew (v : nat) (o : op) | VShare (v : nat) (o : op) | VCall (o : op)
| VCopy (v w : nat) | VMove (v w : nat) | VAssign (v w : nat) | VMoveAssign (v w : nat) | VEnd (v : nat).

Record prog := { p_st : rt; p_hist : hist; p_vars : vars }.
Definition prog0 : prog := {| p_st := rt0; p_hist := []; p_vars := vars0 |}.

Definition call (o : op) (p : prog) : res (prog * option nat) :=
  bind (step o (p_st p)) (fun q => Ok ({| p_st := fst q; p_hist := (o, snd q) :: p_hist p; p_vars := p_vars p |}, snd q)).
Definition set_var (v : nat) (x : option (option nat)) (p : prog) : prog :=
  {| p_st := p_st p; p_hist := p_hist p; p_vars := upd (p_vars p) v x |}.
(** ispcrtRetain / ispcrtRelease of a handle that may be null *)
Definition retain (x : option nat) (p : prog) : res prog :=
  match x with Some x => bind (call (Retain x) p) (fun q => Ok (fst q)) | None => Crash end.
Definition drop (x : option nat) (p : prog) : res prog :=
  match x with Some x => bind (call (Release x) p) (fun q => Ok (fst q)) | None => Ok p end.

Definition vstep (s : vop) (p : prog) : res prog :=
  match s with
  | VNew v o => bind (call o p) (fun q => Ok (set_var v (Some (snd q)) (fst q)))
  | VShare v o =>
      bind (call o p) (fun q =>
      match snd q with
      | None => Ok (set_var v (Some None) (fst q))
      | Some x => bind (retain (Some x) (fst q)) (fun p => Ok (set_var v (Some (Some x)) p))
      end)
  | VCall o => bind (call o p) (fun q => Ok (fst q))
  | VCopy v w => bind (retain (handle (p_vars p) w) p) (fun p => Ok (set_var v (Some (handle (p_vars p) w)) p))
  | VMove v w => Ok (set_var w (Some None) (set_var v (Some (handle (p_vars p) w)) p))
  | VAssign v w =>
      let x := handle (p_vars p) w in
      bind (retain x (set_var v (Some x) p)) (fun p => Ok p)
  | VMoveAssign v w =>
      let p1 := set_var v (Some (handle (p_vars p) w)) p in
      Ok (set_var w (Some None) p1)
  | VEnd v => bind (drop (handle (p_vars p) v) p) (fun p => Ok (set_var v None p))
  end.

Fixpoint vrun (l : list vop) (p : prog) : res prog :=
  match l with [] => Ok p | s :: l => bind (vstep s p) (vrun l) end.

(** *** IntrusivePtr<T>, IntrusivePtr.h 46-126, over objects that hold no others (KView); not used by the
    runtime itself.  ptr is null or the address of an object. *)
Inductive iop :=
| INull (v : nat)          (* 54 *)
| INew (v : nat)           (* IntrusivePtr(new T): 97-100, after which the creator gives up its reference *)
| ICopy (v w : nat)        (* 80-83, and the converting constructor 89-95 *)
| IMove (v w : nat)        (* 85-87 *)
| IAssign (v w : nat)      (* 102-109 *)
| IMoveAssign (v w : nat)  (* 111-115 *)
| IReset (v : nat)         (* assignment of the null pointer of type T*, 117-124 *)
| IEnd (v : nat).          (* 75-78 *)

Record iprog := { i_st : rt; i_vars : vars }.
Definition iprog0 : iprog := {| i_st := rt0; i_vars := vars0 |}.
Definition maybe (f : nat -> rt -> res rt) (x : option nat) (st : rt) : res rt := match x with Some x => f x st | None => Ok st end.
Definition iset (v : nat) (x : option (option nat)) (st : rt) (p : iprog) : iprog := {| i_st := st; i_vars := upd (i_vars p) v x |}.

Definition istep (s : iop) (p : iprog) : res iprog :=
  let h := handle (i_vars p) in
  match s with
  | INull v => Ok (iset v (Some None) (i_st p) p)
  | INew v =>
      let q := create (blank KView) (i_st p) in
      bind (ref_inc (snd q) (fst q)) (fun st =>
      bind (release (snd q) st) (fun st => Ok (iset v (Some (Some (snd q))) st p)))
  | ICopy v w => bind (maybe ref_inc (h w) (i_st p)) (fun st => Ok (iset v (Some (h w)) st p))
  | IMove v w =>
      let p1 := iset v (Some (h w)) (i_st p) p in Ok (iset w (Some None) (i_st p) p1)
  | IAssign v w =>
      bind (maybe ref_inc (h w) (i_st p)) (fun st =>
      bind (maybe release (h v) st) (fun st => Ok (iset v (Some (h w)) st p)))
  | IMoveAssign v w =>
      let p1 := iset v (Some (h w)) (i_st p) p in Ok (iset w (Some None) (i_st p) p1)
  | IReset v => bind (maybe release (h v) (i_st p)) (fun st => Ok (iset v (Some None) st p))
  | IEnd v => bind (maybe release (h v) (i_st p)) (fun st => Ok (iset v None st p))
  end.

Fixpoint irun (l : list iop) (p : iprog) : res iprog :=
  match l with [] => Ok p | s :: l => bind (istep s p) (irun l) end.

(** *** Threads: refCounter is a std::atomic<long long> (IntrusivePtr.h 28); its increment and decrement
    are one step each, the test and the delete are later steps of the same thread. *)
Inductive pc := Idle | Deleting.   (* between statements; inside refDec after the counter became 0 *)
Record thread := { t_refs : nat; t_pc : pc }.
Record shared := { s_count : Z; s_deletes : nat; s_after : bool; s_threads : nat -> thread }.

(** s_after: some thread used the object after its memory was given back *)
Definition touch (s : shared) : bool := s_after s || negb (Nat.eqb (s_deletes s) 0).

Definition set_thread (s : shared) (t : nat) (x : thread) (count : Z) (deletes : nat) (after : bool) : shared :=
  {| s_count := count; s_deletes := deletes; s_after := after; s_threads := upd (s_threads s) t x |}.

(** A thread that has a reference may take another one, give one to another thread, or drop it. *)
Inductive tstep : shared -> shared -> Prop :=
| T_inc s t : t_pc (s_threads s t) = Idle -> (0 < t_refs (s_threads s t))%nat ->
    tstep s (set_thread s t {| t_refs := S (t_refs (s_threads s t)); t_pc := Idle |} (s_count s + 1) (s_deletes s) (touch s))
| T_give s t u : t <> u -> t_pc (s_threads s t) = Idle -> (0 < t_refs (s_threads s t))%nat ->
    tstep s (let s1 := set_thread s t {| t_refs := pred (t_refs (s_threads s t)); t_pc := Idle |} (s_count s) (s_deletes s) (s_after s) in
             set_thread s1 u {| t_refs := S (t_refs (s_threads s1 u)); t_pc := t_pc (s_threads s1 u) |} (s_count s) (s_deletes s) (s_after s))
| T_dec s t : t_pc (s_threads s t) = Idle -> (0 < t_refs (s_threads s t))%nat ->
    tstep s (set_thread s t {| t_refs := pred (t_refs (s_threads s t));
                               t_pc := if s_count s - 1 =? 0 then Deleting else Idle |} (s_count s - 1) (s_deletes s) (touch s))
| T_delete s t : t_pc (s_threads s t) = Deleting ->
    tstep s (set_thread s t {| t_refs := t_refs (s_threads s t); t_pc := Idle |} (s_count s) (S (s_deletes s)) (touch s)).
