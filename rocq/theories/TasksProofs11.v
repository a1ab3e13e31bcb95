(** The properties of launch and sync, for runs from the initial state. *)
From Coq Require Import ZArith List Bool Arith Lia.
From Verif Require Import TasksModel TasksSpec TasksProofs TasksProofs2 TasksProofs4 TasksProofs5 TasksProofs6 TasksProofs7 TasksProofs8 TasksProofs9.
Import ListNotations.
Open Scope Z_scope.

Lemma from_init w h sched s : schedule_ok sched -> run sched (init w h) = Ok s -> s_bad s = false ->
  inv s /\ forall l1 e l2, s_log s = l1 ++ e :: l2 -> ev_ok l2 e.
Proof.
  intros SO R B. pose proof (sched_ok _ SO) as F. pose proof (inv_init w h) as I. split.
  - eapply run_inv; eauto.
  - eapply run_log; eauto. intros l1 e l2 X. destruct l1; discriminate.
Qed.

Lemma suffix_ok (log later earlier : list event) e : (forall l1 e l2, log = l1 ++ e :: l2 -> ev_ok l2 e) -> log = later ++ e :: earlier ->
  forall l1 e l2, earlier = l1 ++ e :: l2 -> ev_ok l2 e.
Proof. intros OK -> l1 x l2 ->. apply (OK (later ++ e :: l1) x l2). rewrite <- app_assoc. reflexivity. Qed.

Lemma launch_pos_in log d f c0 c1 c2 : (forall l1 e l2, log = l1 ++ e :: l2 -> ev_ok l2 e) -> In (EvLaunch d f c0 c1 c2) log ->
  0 < c0 /\ 0 < c1 /\ 0 < c2.
Proof. intros OK H. apply in_split in H as (l1 & l2 & ->). exact (proj1 (OK l1 _ l2 eq_refl)). Qed.

Lemma start_as_launched w h sched s later x t ti tc earlier :
  schedule_ok sched -> run sched (init w h) = Ok s -> s_bad s = false ->
  s_log s = later ++ EvStart x t ti tc :: earlier ->
  In (EvLaunch (i_data x) (i_func x) (i_c0 x) (i_c1 x) (i_c2 x)) earlier /\
  0 <= task_index0 x < i_c0 x /\ 0 <= task_index1 x < i_c1 x /\ 0 <= task_index2 x < i_c2 x /\
  i_index x = task_index0 x + i_c0 x * (task_index1 x + i_c1 x * task_index2 x) /\
  times (call_of (i_data x) (task_index0 x) (task_index1 x) (task_index2 x)) earlier = 0%nat.
Proof.
  intros SO R B E. destruct (from_init w h sched s SO R B) as (I & OK). destruct (OK _ _ _ E) as ((L & IX) & C).
  pose proof (suffix_ok _ _ _ _ OK E) as OK'. destruct (launch_pos_in _ _ _ _ _ _ OK' L) as (P0 & P1 & P2).
  unfold task_count in IX. destruct (index_join (i_c0 x) (i_c1 x) (i_c2 x) (i_index x) P0 P1 P2 IX) as (A0 & A1 & A2 & AE).
  cbv zeta in A0, A1, A2, AE. split; auto. split; auto. split; auto. split; auto. split; auto.
  pose proof (call_start earlier (i_data x) (i_func x) (i_c0 x) (i_c1 x) (i_c2 x) _ _ _ OK' L A0 A1 A2) as X.
  rewrite <- AE, C in X. unfold task_index0, task_index1, task_index2. lia.
Qed.

Lemma done_from log a : (forall l1 e l2, log = l1 ++ e :: l2 -> ev_ok l2 e) ->
  (forall n f c0 c1 c2, In (EvLaunch (a, n) f c0 c1 c2) log -> forall i, 0 <= i < c0 * c1 * c2 ->
     cnt (is_start (a, n) i) log = 1 /\ cnt (is_end (a, n) i) log = 1) -> all_done a log.
Proof.
  intros OK H n f c0 c1 c2 L i0 i1 i2 H0 H1 H2. pose proof (index_range c0 c1 c2 i0 i1 i2 H0 H1 H2) as IR.
  destruct (H n f c0 c1 c2 L _ IR) as (S1 & E1). split.
  - pose proof (call_start log (a, n) f c0 c1 c2 i0 i1 i2 OK L H0 H1 H2) as X. lia.
  - pose proof (end_return (a, n) (i0 + c0 * (i1 + c1 * i2)) log) as X. lia.
Qed.

Lemma sync_waits w h sched s later a earlier :
  schedule_ok sched -> run sched (init w h) = Ok s -> s_bad s = false -> s_log s = later ++ EvSync a :: earlier -> all_done a earlier.
Proof.
  intros SO R B E. destruct (from_init w h sched s SO R B) as (I & OK). apply done_from; [eapply suffix_ok; eauto|].
  exact (OK _ _ _ E).
Qed.

Lemma return_waits w h sched s a :
  schedule_ok sched -> run sched (init w h) = Ok s -> s_bad s = false -> not_running a s -> all_done a (s_log s).
Proof.
  intros SO R B NR. destruct (from_init w h sched s SO R B) as (I & OK). apply done_from; auto. apply done_count; auto.
  intros b (t & fs & E & HI) ID. exfalso. exact (NR t fs b E HI ID).
Qed.

Lemma launches_distinct w h sched s later d f c0 c1 c2 earlier :
  schedule_ok sched -> run sched (init w h) = Ok s -> s_bad s = false -> s_log s = later ++ EvLaunch d f c0 c1 c2 :: earlier ->
  forall g k0 k1 k2, ~ In (EvLaunch d g k0 k1 k2) earlier.
Proof. intros SO R B E. destruct (from_init w h sched s SO R B) as (I & OK). exact (proj2 (OK _ _ _ E)). Qed.

Lemma run_app p q s s1 : run p s = Ok s1 -> run (p ++ q) s = run q s1.
Proof.
  revert s. induction p as [|[t ch] p IH]; cbn; intros s H; [injection H as ->; auto|].
  destruct (step s t ch); try discriminate. auto.
Qed.

Lemma never_undefined w h sched : schedule_ok sched ->
  (forall p1 p2 s1, sched = p1 ++ p2 -> run p1 (init w h) = Ok s1 -> s_bad s1 = false) -> run sched (init w h) <> Undef.
Proof. intros SO H. apply run_not_undef; auto. apply inv_init. apply sched_ok. auto. Qed.

Lemma one_not_bad w h t0 sched s : schedule_ok sched -> launches_on t0 sched -> run sched (init w h) = Ok s -> s_bad s = false.
Proof.
  intros SO LO R. destruct (one_run t0 sched (init w h) s (inv_init w h) (one_init t0 w h) (sched_ok _ SO) LO R) as (B & _). auto.
Qed.

Lemma can_complete w h sched s : schedule_ok sched -> run sched (init w h) = Ok s -> s_bad s = false -> no_stale_read s ->
  exists more, (forall t ch, In (t, ch) more -> ch = CReturn) /\
    (run (sched ++ more) (init w h) = Exit \/
     exists s', run (sched ++ more) (init w h) = Ok s' /\ idle s' /\ forall a, all_done a (s_log s')).
Proof.
  intros SO R B NS. destruct (from_init w h sched s SO R B) as (I & OK).
  destruct (completes s I B) as (more & CR & RO).
  { intros b l i g (t & fs & E & HI) P. exact (NS t fs b l i g E HI P). }
  exists more. split; auto. rewrite (run_app sched more _ s R).
  destruct RO as [X|(s' & X & I' & B' & ID)]; auto. right. exists s'. split; auto. split; auto. intros a.
  apply (return_waits w h (sched ++ more) s'); auto.
  - intros t l HI. apply in_app_or in HI as [HI|HI]; [eapply SO; eauto|]. apply CR in HI. discriminate.
  - rewrite (run_app sched more _ s R). auto.
  - intros t fs b E HI. destruct (ID t fs E) as [->|(i & ->)]; [contradiction|]. destruct HI as [Y|[]]. discriminate.
Qed.

Lemma one_no_stale w h t0 sched s : schedule_ok sched -> launches_on t0 sched -> run sched (init w h) = Ok s -> no_stale_read s.
Proof.
  intros SO LO R t fs b l i g E HI P.
  destruct (one_run t0 sched (init w h) s (inv_init w h) (one_init t0 w h) (sched_ok _ SO) LO R) as (B & OT & TT).
  destruct (Nat.eq_dec t t0) as [->|N].
  - destruct fs as [|f fs]; [contradiction|]. destruct (TT f fs E) as (T & L). destruct HI as [->|HI].
    + cbn in T. rewrite P in T. auto.
    + specialize (L _ HI). cbn in L. rewrite P in L. contradiction.
  - destruct (OT t fs _ N E HI) as (_ & X). congruence.
Qed.
