(** What "every task runs exactly once, before sync returns" means for a history of events, newest first. *)
From Coq Require Import ZArith List Bool Arith.
From Verif Require Import TasksModel.
Import ListNotations.
Open Scope Z_scope.

Definition times (p : event -> bool) (l : list event) : nat := length (filter p l).

Definition same_block (d e : data) : bool := Nat.eqb (fst d) (fst e) && Nat.eqb (snd d) (snd e).

(** the call of the task of launch [d] with taskIndex0, 1, 2 = i0, i1, i2 *)
Definition call_of (d : data) (i0 i1 i2 : Z) (e : event) : bool :=
  match e with
  | EvStart x _ _ _ => same_block (i_data x) d && (task_index0 x =? i0) && (task_index1 x =? i1) && (task_index2 x =? i2)
  | _ => false
  end.

(** the return of the task of launch [d] with taskIndex = i *)
Definition return_of (d : data) (i : Z) (e : event) : bool :=
  match e with EvEnd e j => same_block e d && (j =? i) | _ => false end.

(** All tasks of the launches executed by activation [a] have been called once and have returned. *)
Definition all_done (a : nat) (history : list event) : Prop :=
  forall n f c0 c1 c2, In (EvLaunch (a, n) f c0 c1 c2) history ->
  forall i0 i1 i2, 0 <= i0 < c0 -> 0 <= i1 < c1 -> 0 <= i2 < c2 ->
    times (call_of (a, n) i0 i1 i2) history = 1%nat /\
    times (return_of (a, n) (i0 + c0 * (i1 + c1 * i2))) history = 1%nat.

(** Launches with at least one task and fewer than 2^30. *)
Definition launch_counts_ok (l : launch) : Prop :=
  0 < l_c0 l /\ 0 < l_c1 l /\ 0 < l_c2 l /\ l_c0 l * l_c1 l * l_c2 l < 2 ^ 30.
Definition schedule_ok (sched : list (nat * choice)) : Prop :=
  forall t l, In (t, CLaunch l) sched -> launch_counts_ok l.

(** Only thread [t0] executes launches (its own, and those of tasks it executes while it waits). *)
Definition launches_on (t0 : nat) (sched : list (nat * choice)) : Prop := forall t l, In (t, CLaunch l) sched -> t = t0.

(** Activation [a] is not being executed. *)
Definition not_running (a : nat) (s : st) : Prop :=
  forall t fs b, nth_error (s_thr s) t = Some fs -> In (FAct b) fs -> a_id b <> a.

(** No thread is between the test of a slot and the compare-and-swap in AllocTaskGroup, with another
    group in the slot by now. *)
Definition no_stale_read (s : st) : Prop :=
  forall t fs b l i g, nth_error (s_thr s) t = Some fs -> In (FAct b) fs -> a_pc b = PCas l i g ->
    nth i (s_free s) None = None \/ nth i (s_free s) None = Some g.

(** No thread is in ispc code, and the workers have nothing to do. *)
Definition idle (s : st) : Prop :=
  forall t fs, nth_error (s_thr s) t = Some fs -> fs = [] \/ exists i, fs = [FWork i WWait].

(** The number of tasks activation [a] has launched since its last sync. *)
Fixpoint pending (a : nat) (history : list event) : Z :=
  match history with
  | [] => 0
  | EvSync b :: r => if Nat.eqb b a then 0 else pending a r
  | EvLaunch d _ c0 c1 c2 :: r => (if Nat.eqb (fst d) a then c0 * c1 * c2 else 0) + pending a r
  | _ :: r => pending a r
  end.
(** Thread [t] executes the statement launch[c0][c1][c2] of activation [a]. *)
Definition launching (s : st) (t a : nat) (l : launch) : Prop :=
  exists b rest, nth_error (s_thr s) t = Some (FAct b :: rest) /\ a_id b = a /\ a_pc b = PFill l.
