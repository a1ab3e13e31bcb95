(** C68: which commands of a task queue happen one after the other. *)
From Coq Require Import List Bool Arith.
Import ListNotations.
From Verif Require Import QueueModel.

(** The calls that returned, in order; a call is named by its place in this list. *)
Definition calls (ls : list label) : list what := flat_map (fun l => match l with Do o => [o] | _ => [] end) ls.
Definition is_at (ls : list label) (i : nat) (o : what) : Prop := nth_error (calls ls) i = Some o.
(** Do barriers apply?  To everything if there is one command list, else to kernels and copies between views of the device. *)
Definition barriers_apply (g : cfg) (o : what) : Prop := multi g = false \/ is_compute o = true.
(** The order the runtime promises for call i and the later call j. *)
Definition promised (g : cfg) (ls : list label) (i j : nat) : Prop :=
  exists a b, is_at ls i a /\ is_at ls j b /\ i < j /\ is_barrier a = false /\ is_barrier b = false /\
    ((is_todev a = true /\ exists k, b = Launch k) \/
     (is_compute a = true /\ is_tohost b = true) \/
     (barriers_apply g a /\ barriers_apply g b /\ exists m, i < m < j /\ is_at ls m Barrier) \/
     (exists l1 l2, ls = l1 ++ SyncEnd :: l2 /\ i < length (calls l1) <= j)).
(** ... and what follows from it. *)
Inductive ordered (g : cfg) (ls : list label) : nat -> nat -> Prop :=
| ord_promised : forall i j, promised g ls i j -> ordered g ls i j
| ord_trans : forall i k j, ordered g ls i k -> ordered g ls k j -> ordered g ls i j.
(** j begins after i has finished. *)
Definition one_after_other (ls : list label) (i j : nat) : Prop := forall l1 l2, ls = l1 ++ Start j :: l2 -> In (Finish i) l1.

(** The calls since the last sync. *)
Fixpoint batch_from (cur : list what) (ls : list label) : list what :=
  match ls with [] => cur | SyncEnd :: ls => batch_from [] ls | Do o :: ls => batch_from (cur ++ [o]) ls | _ :: ls => batch_from cur ls end.
Definition batch (ls : list label) : list what := batch_from [] ls.
(** With a copy engine sync waits for one of the two hardware queues: batches for which this is enough. *)
Definition tidy (os : list what) : Prop :=
  (exists pre post m, os = pre ++ ToHost m :: post /\ forallb (fun o => negb (is_compute o)) post = true) \/
  ((forall m, ~ In (ToHost m) os) /\ (exists k pre post, os = pre ++ Launch k :: post /\ forallb (fun o => negb (is_todev o)) post = true)) \/
  (forallb (fun o => negb (is_compute o)) os = true) \/
  (forallb (fun o => negb (is_todev o) && negb (is_tohost o)) os = true).

(** ** Data *)
Inductive loc := HostLoc (m : nat) | DevLoc (m : nat).
Definition memory (V : Type) := loc -> V.
(** A kernel reads and writes some locations of the device. *)
Record kernel (V : Type) := Kernel { k_reads : list loc; k_writes : list loc; k_run : memory V -> memory V }.
Arguments k_reads {V}. Arguments k_writes {V}. Arguments k_run {V}.
Definition kernel_ok {V} (k : kernel V) : Prop :=
  (forall x m, ~ In x (k_writes k) -> k_run k m x = m x) /\
  (forall x m m', (forall y, In y (k_reads k) -> m y = m' y) -> In x (k_writes k) -> k_run k m x = k_run k m' x).
Definition loc_eqb (a b : loc) : bool := match a, b with HostLoc i, HostLoc j | DevLoc i, DevLoc j => i =? j | _, _ => false end.
Definition put {V} (x : loc) (v : V) (m : memory V) : memory V := fun y => if loc_eqb x y then v else m y.
Definition effect {V} (K : nat -> kernel V) (o : what) (m : memory V) : memory V :=
  match o with
  | ToDev i => put (DevLoc i) (m (HostLoc i)) m
  | ToHost i => put (HostLoc i) (m (DevLoc i)) m
  | CopyDev d s => put (DevLoc d) (m (DevLoc s)) m
  | Launch k => k_run (K k) m
  | Barrier => m
  end.
Definition reads {V} (K : nat -> kernel V) (o : what) : list loc :=
  match o with ToDev i => [HostLoc i] | ToHost i => [DevLoc i] | CopyDev _ s => [DevLoc s] | Launch k => k_reads (K k) | Barrier => [] end.
Definition writes {V} (K : nat -> kernel V) (o : what) : list loc :=
  match o with ToDev i => [DevLoc i] | ToHost i => [HostLoc i] | CopyDev d _ => [DevLoc d] | Launch k => k_writes (K k) | Barrier => [] end.
Definition conflict {V} (K : nat -> kernel V) (a b : what) : Prop :=
  exists x, (In x (writes K a) /\ (In x (writes K b) \/ In x (reads K b))) \/ (In x (reads K a) /\ In x (writes K b)).
(** The calls one after the other. *)
Definition sequential {V} (K : nat -> kernel V) (os : list what) (m : memory V) : memory V := fold_left (fun m o => effect K o m) os m.
(** What the device did. *)
Definition device_run {V} (K : nat -> kernel V) (ls : list label) (m : memory V) : memory V :=
  fold_left (fun m l => match l with Effect i => match nth_error (calls ls) i with Some o => effect K o m | None => m end | _ => m end) ls m.
