(** Concrete runs of the task system. *)
From Coq Require Import ZArith List Bool Arith.
From Verif Require Import TasksModel TasksSpec.
Import ListNotations.
Open Scope Z_scope.

(** [n] times the choice [c] by thread [t].  CCall does nothing in a function that is running. *)
Definition rep (t : nat) (c : choice) (n : nat) : list (nat * choice) := repeat (t, c) n.

Definition one_task : launch := {| l_func := 7; l_c0 := 1; l_c1 := 1; l_c2 := 1 |}.
Definition six_tasks : launch := {| l_func := 7; l_c0 := 2; l_c1 := 3; l_c2 := 1 |}.
Definition no_tasks : launch := {| l_func := 7; l_c0 := 0; l_c1 := 1; l_c2 := 1 |}.

(** Two workers and one host (thread 2): it launches 2 x 3 tasks, the workers take one each and the
    host executes the others in sync. *)
Definition sched_six : list (nat * choice) :=
  rep 2 CCall 1 ++ rep 2 (CLaunch six_tasks) 1 ++ rep 2 CCall 80 ++
  rep 0 CCall 2 ++ rep 1 CCall 2 ++
  rep 2 CSync 1 ++ rep 2 CReturn 10 ++
  rep 0 CReturn 2 ++ rep 2 CReturn 3 ++ rep 1 CReturn 2 ++ rep 2 CReturn 9.

(** The host executes no tasks of its own, and returns without sync. *)
Definition sched_ret : list (nat * choice) :=
  rep 2 CCall 1 ++ rep 2 (CLaunch six_tasks) 1 ++ rep 2 CCall 80 ++ rep 2 CReturn 41.

(** The host is about to launch 2^22 tasks. *)
Definition sched_full : list (nat * choice) :=
  rep 2 CCall 1 ++ rep 2 (CLaunch {| l_func := 7; l_c0 := 2 ^ 20; l_c1 := 2; l_c2 := 2 |}) 1 ++ rep 2 CCall 65.

Definition sched_zero : list (nat * choice) :=
  rep 2 CCall 1 ++ rep 2 (CLaunch no_tasks) 1 ++ rep 2 CCall 80 ++ rep 2 CSync 2.

(** One worker (thread 0) and three hosts: two functions get the same task group. *)
Definition sched_race : list (nat * choice) :=
  rep 1 CCall 1 ++ rep 1 (CLaunch one_task) 1 ++ rep 1 CCall 80 ++
  rep 2 CCall 1 ++ rep 2 (CLaunch one_task) 1 ++ rep 2 CCall 80 ++
  rep 1 CSync 1 ++ rep 1 CCall 2 ++ rep 1 CReturn 1 ++ rep 1 CCall 20 ++
  rep 3 CCall 1 ++ rep 3 (CLaunch one_task) 1 ++ rep 3 CCall 1 ++      (* reads slot 0 *)
  rep 1 (CLaunch one_task) 1 ++ rep 1 CCall 2 ++                       (* takes the group in it *)
  rep 2 CSync 1 ++ rep 2 CCall 2 ++ rep 2 CReturn 1 ++ rep 2 CCall 20 ++ (* puts its own group there *)
  rep 3 CCall 1 ++                                                     (* fails, and uses that group *)
  rep 2 (CLaunch one_task) 1 ++ rep 2 CCall 80 ++                      (* takes it too *)
  rep 0 CCall 2 ++                                                     (* a worker starts that task *)
  rep 3 CCall 2 ++                                                     (* pushes its task *)
  rep 2 CSync 1 ++ rep 2 CCall 2 ++ rep 2 CReturn 1 ++ rep 2 CCall 2.

(** One worker and one host execute a task each. *)
Definition sched_index : list (nat * choice) :=
  rep 1 CCall 1 ++ rep 1 (CLaunch six_tasks) 1 ++ rep 1 CCall 80 ++ rep 0 CCall 2 ++ rep 1 CSync 1 ++ rep 1 CCall 2.

Definition log_of (r : result) : option (list event) := match r with Ok s => Some (s_log s) | _ => None end.
Definition bad_of (r : result) : option bool := match r with Ok s => Some (s_bad s) | _ => None end.
Lemma log_run r l : log_of r = Some l -> exists s, r = Ok s /\ s_log s = l.
Proof. destruct r; cbn; intros H; try discriminate. injection H as <-. eauto. Qed.

Definition history (r : result) : list event := match r with Ok s => s_log s | _ => [] end.
Definition log_six : list event := Eval vm_compute in history (run sched_six (init 2 1)).
Definition log_race : list event := Eval vm_compute in history (run sched_race (init 1 3)).
Definition log_index : list event := Eval vm_compute in history (run sched_index (init 1 1)).

Lemma run_six : exists s, run sched_six (init 2 1) = Ok s /\ s_bad s = false /\ s_log s = log_six.
Proof.
  assert (B : bad_of (run sched_six (init 2 1)) = Some false) by (vm_compute; reflexivity).
  destruct (log_run (run sched_six (init 2 1)) log_six ltac:(vm_compute; reflexivity)) as (s & R & L).
  exists s. rewrite R in B. cbn in B. injection B as B. auto.
Qed.
Lemma run_race : exists s, run sched_race (init 1 3) = Ok s /\ s_log s = log_race.
Proof. apply log_run. vm_compute. reflexivity. Qed.
Lemma run_index : exists s, run sched_index (init 1 1) = Ok s /\ s_log s = log_index.
Proof. apply log_run. vm_compute. reflexivity. Qed.

Definition check (p : nat -> launch -> bool) (sched : list (nat * choice)) : bool :=
  forallb (fun x => match snd x with CLaunch l => p (fst x) l | _ => true end) sched.
Lemma check_in p sched t l : check p sched = true -> In (t, CLaunch l) sched -> p t l = true.
Proof. intros H HI. unfold check in H. rewrite forallb_forall in H. exact (H _ HI). Qed.
Definition counts (l : launch) : bool :=
  (0 <? l_c0 l) && (0 <? l_c1 l) && (0 <? l_c2 l) && (l_c0 l * l_c1 l * l_c2 l <? 2 ^ 30).
Lemma check_ok sched : check (fun _ => counts) sched = true -> schedule_ok sched.
Proof.
  intros H t l HI. apply (check_in _ _ _ _ H) in HI. unfold counts in HI. rewrite !andb_true_iff, !Z.ltb_lt in HI.
  unfold launch_counts_ok. tauto.
Qed.
Lemma check_on t0 sched : check (fun t _ => Nat.eqb t t0) sched = true -> launches_on t0 sched.
Proof. intros H t l HI. apply (check_in _ _ _ _ H) in HI. apply Nat.eqb_eq. auto. Qed.
