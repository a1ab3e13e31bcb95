(** Who has a reference to what, read off the history of calls (latest first): what a user of the runtime
    knows.  Nothing here looks at counters or memory. *)
From Coq Require Import ZArith List Bool.
From Verif Require Import RefCountModel.
Import ListNotations.
Open Scope Z_scope.

(** The class of the object a call returns a handle to. *)
Definition made (o : op) : option kind :=
  match o with
  | NewDevice => Some KDevice | NewContext => Some KContext
  | NewView _ | NewViewForContext _ => Some KView
  | NewOptions _ => Some KOptions
  | LoadModule _ _ _ | LoadModuleWithOptions _ _ _ _ | StaticLink _ _ => Some KModule
  | NewKernel _ _ _ => Some KKernel
  | NewQueue _ => Some KQueue | NewTaskQueue _ => Some KTaskQueue
  | CreateList _ => Some KList
  | ListCopy _ _ | ListCopyViews _ _ _ _ | ListLaunch _ _ _ | QueueLaunch _ _ _ => Some KFuture
  | Submit _ => Some KFence
  | _ => None
  end.

(** The object that keeps the object a call returns; None: the caller does. *)
Definition keeper (o : op) : option nat :=
  match o with
  | CreateList q => Some q
  | ListCopy l _ | ListCopyViews l _ _ _ | ListLaunch l _ _ | Submit l => Some l
  | QueueLaunch q _ _ => Some q
  | _ => None
  end.

Definition is_kind (h : hist) (k : kind) (x : nat) : Prop := exists o, In (o, Some x) h /\ made o = Some k.

(** References the program itself has: one for each object it made and one for each retain, less the
    releases. *)
Definition event_refs (x : nat) (e : op * option nat) : Z :=
  match e with
  | (Retain y, _) => if Nat.eqb y x then 1 else 0
  | (Release y, _) => if Nat.eqb y x then -1 else 0
  | (o, Some y) => if Nat.eqb y x then match keeper o with None => 1 | Some _ => 0 end else 0
  | (_, None) => 0
  end.
Fixpoint app_refs (h : hist) (x : nat) : Z := match h with [] => 0 | e :: h => event_refs x e + app_refs h x end.

(** References objects have: a queue to its command lists, a command list to the futures and fences it
    handed out since it was last reset, a task queue to its futures, a kernel to its module. *)
Inductive holds : hist -> nat -> nat -> Prop :=
| holds_new h o p x : keeper o = Some p -> holds ((o, Some x) :: h) p x
| holds_module h d m k : holds ((NewKernel d m true, Some k) :: h) k m
| holds_later h e p x : holds h p x -> fst e <> ListReset p -> holds (e :: h) p x.

(** An object has to exist when the program has a reference to it or an object that has to exist does. *)
Inductive lives (h : hist) : nat -> Prop :=
| lives_app x : 0 < app_refs h x -> lives h x
| lives_held p x : lives h p -> holds h p x -> lives h x.

(** The handles a call is given, with the class each has to have. *)
Definition uses (o : op) : list (kind * nat) :=
  match o with
  | NewDevice | NewContext | Retain _ | Release _ => []
  | NewView d | NewOptions d | LoadModule d _ _ | NewQueue d | NewTaskQueue d => [(KDevice, d)]
  | NewViewForContext c => [(KContext, c)]
  | LoadModuleWithOptions d _ _ o => [(KDevice, d); (KOptions, o)]
  | StaticLink d ms => (KDevice, d) :: map (fun m => (KModule, m)) ms
  | NewKernel d m _ => [(KDevice, d); (KModule, m)]
  | CreateList q => [(KQueue, q)]
  | ListCopy l v => [(KList, l); (KView, v)]
  | ListCopyViews l v1 v2 _ => [(KList, l); (KView, v1); (KView, v2)]
  | ListLaunch l k p => (KList, l) :: (KKernel, k) :: map (fun v => (KView, v)) (opt_list p)
  | Submit l | ListReset l => [(KList, l)]
  | QueueLaunch q k p => (KTaskQueue, q) :: (KKernel, k) :: map (fun v => (KView, v)) (opt_list p)
  | QueueCopyViews q v1 v2 => [(KTaskQueue, q); (KView, v1); (KView, v2)]
  | FunctionPtr m _ => [(KModule, m)]
  | Query k x => [(k, x)]
  end.

(** A correct use of the API: handles of objects that exist, of the right class; release only what one has
    a reference to. *)
Definition correct_use (h : hist) (o : op) : Prop :=
  (forall k x, In (k, x) (uses o) -> lives h x /\ is_kind h k x) /\
  match o with Retain x => lives h x | Release x => 0 < app_refs h x | _ => True end.

(** The two things a program must not do in addition (see the refuted theorems): link modules statically,
    or drop the last reference to a task queue while it has references to futures of that queue. *)
Definition avoids (h : hist) (o : op) : Prop :=
  match o with
  | StaticLink _ _ => False
  | Release q => is_kind h KTaskQueue q -> app_refs h q = 1 -> forall f, holds h q f -> app_refs h f = 0
  | _ => True
  end.

(** Every call of a run satisfies a condition on the history before it. *)
Definition always (ok : hist -> op -> Prop) (ops : list op) : Prop :=
  forall before o after st h, ops = before ++ o :: after -> run before rt0 [] = Ok (st, h) -> ok h o.

(** For the wrappers: the number of variables that refer to an object, over variables below a bound. *)
Definition refers (e : vars) (x v : nat) : bool := match handle e v with Some y => Nat.eqb y x | None => false end.
Definition variables (e : vars) (x bound : nat) : nat := length (filter (refers e x) (seq 0 bound)).

(** The variable a step makes, and the variables it reads *)
Definition vmakes (s : vop) : option nat :=
  match s with VNew v _ | VShare v _ | VCopy v _ | VMove v _ => Some v | _ => None end.
Definition vreads (s : vop) : list nat :=
  match s with VCopy _ w | VMove _ w => [w] | VAssign v w | VMoveAssign v w => [v; w] | VEnd v => [v] | _ => [] end.

(** Correct C++: constructors make new variables, other operations use variables that exist; member
    functions are called with handles of variables, of the right class. *)
Definition owner (o : op) : bool := match o with Retain _ | Release _ => false | _ => true end.
Definition vop_of (s : vop) : option op := match s with VNew _ o | VShare _ o | VCall o => Some o | _ => None end.
Definition correct_cpp (p : prog) (s : vop) : Prop :=
  (forall v, vmakes s = Some v -> p_vars p v = None) /\
  (forall w, In w (vreads s) -> p_vars p w <> None) /\
  (forall o, vop_of s = Some o ->
     owner o = true /\
     (forall k x, In (k, x) (uses o) -> (exists v, handle (p_vars p) v = Some x) /\ is_kind (p_hist p) k x) /\
     match s with
     | VNew _ _ => made o <> None /\ keeper o = None
     | VShare _ _ => keeper o <> None
     | _ => made o = None
     end).

(** What has to be avoided with the wrappers: copying an empty wrapper, assigning to a wrapper that is not
    empty; futures of task queues kept longer than the queue, static linking. *)
Definition careful_cpp (p : prog) (s : vop) : Prop :=
  match s with
  | VCopy _ w => handle (p_vars p) w <> None
  | VAssign v w => handle (p_vars p) w <> None /\ handle (p_vars p) v = None
  | VMoveAssign v w => handle (p_vars p) v = None
  | VEnd v =>
      forall q, handle (p_vars p) v = Some q -> avoids (p_hist p) (Release q)
  | VNew _ (StaticLink _ _) | VShare _ (StaticLink _ _) | VCall (StaticLink _ _) => False
  | _ => True
  end.

Definition valways (ok : prog -> vop -> Prop) (l : list vop) : Prop :=
  forall before s after p, l = before ++ s :: after -> vrun before prog0 = Ok p -> ok p s.

(** IntrusivePtr *)
Definition imakes (s : iop) : option nat := match s with INull v | INew v | ICopy v _ | IMove v _ => Some v | _ => None end.
Definition ireads (s : iop) : list nat :=
  match s with ICopy _ w | IMove _ w => [w] | IAssign v w | IMoveAssign v w => [v; w] | IReset v | IEnd v => [v] | _ => [] end.
Definition correct_ptr (p : iprog) (s : iop) : Prop :=
  (forall v, imakes s = Some v -> i_vars p v = None) /\ (forall w, In w (ireads s) -> i_vars p w <> None).
Definition careful_ptr (p : iprog) (s : iop) : Prop :=
  match s with IMoveAssign v _ => handle (i_vars p) v = None | _ => True end.
Definition ialways (ok : iprog -> iop -> Prop) (l : list iop) : Prop :=
  forall before s after p, l = before ++ s :: after -> irun before iprog0 = Ok p -> ok p s.

(** Threads: the object was made by thread t, which has the only reference. *)
Definition alone (t : nat) : shared :=
  {| s_count := 1; s_deletes := 0; s_after := false; s_threads := fun u => {| t_refs := if Nat.eqb u t then 1 else 0; t_pc := Idle |} |}.

Inductive treach : shared -> shared -> Prop :=
| treach_refl s : treach s s
| treach_step s s1 s2 : treach s s1 -> tstep s1 s2 -> treach s s2.
