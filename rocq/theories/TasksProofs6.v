(** The history of every run. *)
From Coq Require Import ZArith List Bool Arith Lia.
From Verif Require Import TasksModel TasksSpec TasksProofs TasksProofs2 TasksProofs3 TasksProofs4 TasksProofs5.
Import ListNotations.
Open Scope Z_scope.

Lemma cnt_times p l : cnt p l = Z.of_nat (times p l).
Proof. unfold times. induction l as [|e l IH]; cbn [cnt filter]; auto. rewrite IH. destruct (p e); cbn [length]; lia. Qed.

Lemma same_block_eq d e : same_block d e = data_eqb d e. Proof. reflexivity. Qed.

Lemma sched_ok sched : schedule_ok sched -> Forall (fun p => ch_ok (snd p)) sched.
Proof.
  intros H. apply Forall_forall. intros [t ch] HI. cbn. destruct ch; cbn; auto. exact (H t l HI).
Qed.

(** ** taskIndex0, 1, 2 *)
Lemma index_split c0 c1 i0 i1 i2 : 0 <= i0 < c0 -> 0 <= i1 < c1 -> 0 <= i2 ->
  let i := i0 + c0 * (i1 + c1 * i2) in
  Z.rem i c0 = i0 /\ Z.rem (Z.quot i c0) c1 = i1 /\ Z.quot i (c0 * c1) = i2.
Proof.
  intros H0 H1 H2 i. assert (N1 : 0 <= i1 + c1 * i2) by nia. assert (N : 0 <= i) by (unfold i; nia).
  assert (D : i / c0 = i1 + c1 * i2). { unfold i. replace (i0 + c0 * (i1 + c1 * i2)) with (i0 + (i1 + c1 * i2) * c0) by ring. rewrite Z.div_add by lia. rewrite Z.div_small; lia. }
  assert (Q : Z.quot i c0 = i1 + c1 * i2) by (rewrite Z.quot_div_nonneg by lia; auto).
  split; [|split].
  - rewrite Z.rem_mod_nonneg by lia. unfold i. replace (i0 + c0 * (i1 + c1 * i2)) with (i0 + (i1 + c1 * i2) * c0) by ring. rewrite Z.mod_add by lia. apply Z.mod_small; auto.
  - rewrite Q, Z.rem_mod_nonneg by lia. replace (i1 + c1 * i2) with (i1 + i2 * c1) by ring. rewrite Z.mod_add by lia. apply Z.mod_small; auto.
  - rewrite Z.quot_div_nonneg by nia. rewrite <- Z.div_div by lia. rewrite D. replace (i1 + c1 * i2) with (i1 + i2 * c1) by ring.
    rewrite Z.div_add by lia. rewrite Z.div_small; lia.
Qed.

Lemma index_join c0 c1 c2 i : 0 < c0 -> 0 < c1 -> 0 < c2 -> 0 <= i < c0 * c1 * c2 ->
  let i0 := Z.rem i c0 in let i1 := Z.rem (Z.quot i c0) c1 in let i2 := Z.quot i (c0 * c1) in
  0 <= i0 < c0 /\ 0 <= i1 < c1 /\ 0 <= i2 < c2 /\ i = i0 + c0 * (i1 + c1 * i2).
Proof.
  intros H0 H1 H2 H. cbv zeta. rewrite (Z.rem_mod_nonneg i c0), (Z.quot_div_nonneg i c0), (Z.quot_div_nonneg i (c0 * c1)) by nia.
  pose proof (Z.div_pos i c0 ltac:(lia) H0). rewrite Z.rem_mod_nonneg by lia. rewrite <- Z.div_div by lia.
  pose proof (Z.mod_pos_bound i c0 H0). pose proof (Z.mod_pos_bound (i / c0) c1 H1).
  pose proof (Z.div_mod i c0 ltac:(lia)). pose proof (Z.div_mod (i / c0) c1 ltac:(lia)).
  pose proof (Z.div_pos (i / c0) c1 ltac:(lia) H1).
  split; [lia|]. split; [lia|]. split; [|lia]. split; [lia|].
  assert (i / c0 < c1 * c2) by (apply Z.div_lt_upper_bound; nia). apply Z.div_lt_upper_bound; lia.
Qed.

Lemma index_range c0 c1 c2 i0 i1 i2 : 0 <= i0 < c0 -> 0 <= i1 < c1 -> 0 <= i2 < c2 ->
  0 <= i0 + c0 * (i1 + c1 * i2) < c0 * c1 * c2.
Proof.
  intros H0 H1 H2. assert (0 <= i1 + c1 * i2) by nia. assert (i1 + c1 * i2 + 1 <= c1 * c2) by nia. split; [nia|].
  assert (i0 + c0 * (i1 + c1 * i2) < c0 * (i1 + c1 * i2 + 1)) by lia.
  assert (c0 * (i1 + c1 * i2 + 1) <= c0 * (c1 * c2)) by (apply Z.mul_le_mono_nonneg_l; lia). lia.
Qed.

(** ** One event *)
Definition ev_ok (log : list event) (e : event) : Prop :=
  match e with
  | EvLaunch d _ c0 c1 c2 => (0 < c0 /\ 0 < c1 /\ 0 < c2) /\ forall f c0 c1 c2, ~ In (EvLaunch d f c0 c1 c2) log
  | EvStart x _ _ _ => launched log x /\ cnt (is_start (i_data x) (i_index x)) log = 0
  | EvEnd d i => cnt (is_start d i) log = 1 /\ cnt (is_end d i) log = 0
  | EvSync a => forall n f c0 c1 c2, In (EvLaunch (a, n) f c0 c1 c2) log -> forall i, 0 <= i < c0 * c1 * c2 ->
                  cnt (is_start (a, n) i) log = 1 /\ cnt (is_end (a, n) i) log = 1
  end.

Lemma w_own_one g x f : 0 < w_own g x f -> exists a, f = FAct a /\ a_handle a = Some g /\ a_id a = x.
Proof.
  destruct f as [a|]; cbn; [|lia]. destruct (nat_eqb_opt (a_handle a) g) eqn:E; cbn; [|lia].
  destruct (Nat.eqb_spec (a_id a) x); cbn; [|lia]. intros _. exists a. apply nat_eqb_opt_some in E. auto.
Qed.

(** Tasks of an activation that owns no unfinished tasks. *)
Lemma done_count s x : inv s ->
  (forall b, fr (s_thr s) (FAct b) -> a_id b = x -> quiet (a_pc b) /\
     forall g, a_handle b = Some g -> g_wait (s_grp s g) = [] /\ tot (w_dec g) (s_thr s) = 0) ->
  forall n f c0 c1 c2, In (EvLaunch (x, n) f c0 c1 c2) (s_log s) -> forall i, 0 <= i < c0 * c1 * c2 ->
    cnt (is_start (x, n) i) (s_log s) = 1 /\ cnt (is_end (x, n) i) (s_log s) = 1.
Proof.
  intros I H n f c0 c1 c2 L i Hi.
  assert (LA : cnt (is_launch (x, n) i) (s_log s) = 1).
  { pose proof (v_once _ I (x, n) i). pose proof (cnt_in (is_launch (x, n) i) _ _ L) as X. cbn [is_launch] in X.
    rewrite data_eqb_refl in X. destruct (Z.leb_spec 0 i); [|lia]. destruct (Z.ltb_spec i (c0 * c1 * c2)); [|lia].
    specialize (X eq_refl). lia. }
  assert (OWN : forall g, tot (w_own g x) (s_thr s) = 1 -> g_wait (s_grp s g) = [] /\ tot (w_dec g) (s_thr s) = 0).
  { intros g E. destruct (tot_pos (w_own g x) (s_thr s) ltac:(lia)) as (t & fs & fm & E1 & E2 & E3).
    apply w_own_one in E3 as (b & -> & HB & IB). apply (H b); auto. exists t, fs. auto. }
  pose proof (v_count _ I (x, n) i) as C.
  assert (W0 : gsum (fun g => waiting (x, n) i (s_grp s g)) (s_new s) = 0).
  { apply gsum_zero. intros g _. destruct (Z.eq_dec (waiting (x, n) i (s_grp s g)) 0) as [E|E]; auto. exfalso.
    assert (P : 0 < waiting (x, n) i (s_grp s g)). { assert (0 <= waiting (x, n) i (s_grp s g)) by apply cnt_nonneg. lia. }
    apply cnt_pos in P as (j & J1 & J2). unfold is_task in J2. apply andb_prop in J2 as (J2 & _). apply data_eqb_eq in J2.
    destruct (v_wait _ I g j J1) as (_ & _ & O). rewrite J2 in O. cbn [fst] in O. destruct (OWN g O) as (W & _).
    rewrite W in J1. contradiction. }
  assert (P0 : tot (w_pend (x, n) i) (s_thr s) = 0).
  { pose proof (tot_nonneg (w_pend (x, n) i) (s_thr s) (w_pend_nn _ _)) as NN.
    destruct (Z.eq_dec (tot (w_pend (x, n) i) (s_thr s)) 0) as [E|E]; auto. exfalso.
    destruct (tot_pos (w_pend (x, n) i) (s_thr s) ltac:(lia)) as (t & fs & fm & E1 & E2 & E3).
    destruct fm as [b|]; cbn in E3; [|lia]. assert (F : fr (s_thr s) (FAct b)) by (exists t, fs; auto).
    pose proof (v_act _ I b F) as AO. unfold act_ok in AO. destruct (a_pc b) as [| | | |l e base| | | | | | |] eqn:PC; try lia.
    destruct (data_eqb e (x, n)) eqn:DE; cbn in E3; [|lia]. apply data_eqb_eq in DE. subst e. destruct AO as (_ & A1 & _). cbn in A1.
    destruct (H b F (eq_sym A1)) as (Q & _). rewrite PC in Q. exact Q. }
  assert (S1 : cnt (is_start (x, n) i) (s_log s) = 1) by lia. split; auto.
  pose proof (v_running _ I (x, n) i) as R.
  assert (R0 : tot (w_run (x, n) i) (s_thr s) = 0).
  { pose proof (tot_nonneg (w_run (x, n) i) (s_thr s) (w_run_nn _ _)) as NN.
    destruct (Z.eq_dec (tot (w_run (x, n) i) (s_thr s)) 0) as [E|E]; auto. exfalso.
    destruct (tot_pos (w_run (x, n) i) (s_thr s) ltac:(lia)) as (t & fs & fm & E1 & E2 & E3).
    destruct fm as [b|]; cbn in E3; [|lia]. assert (F : fr (s_thr s) (FAct b)) by (exists t, fs; auto).
    destruct (a_task b) as [[[g e] j]|] eqn:TB; [|lia]. destruct (data_eqb e (x, n)) eqn:DE; cbn in E3; [|lia].
    apply data_eqb_eq in DE. subst e. destruct (v_task _ I (FAct b) g (x, n) j F TB) as (O & _). cbn [fst] in O.
    destruct (OWN g O) as (_ & D). pose proof (tasks_dec s g I).
    pose proof (tot_fr (w_task g) _ _ (w_task_nn g) F) as X. cbn in X. rewrite TB, Nat.eqb_refl in X. cbn in X. lia. }
  lia.
Qed.

Lemma same_frame s x a b : inv s -> fr (s_thr s) (FAct a) -> fr (s_thr s) (FAct b) -> a_id a = x -> a_id b = x -> a = b.
Proof.
  intros I (t & fs & E & A) (u & fs' & E' & B) HA HB.
  assert (D : {FAct a = FAct b} + {FAct a <> FAct b}).
  { repeat (decide equality; try apply Z.eq_dec; try apply Nat.eq_dec). }
  destruct D as [D|D]; [injection D; auto|]. exfalso.
  pose proof (tot_two (w_id x) _ t u fs fs' _ _ (w_id_nn x) E E' A B D) as T. cbn in T. rewrite HA, HB, Nat.eqb_refl in T.
  cbn in T. pose proof (v_id _ I x). lia.
Qed.

Definition log_step (s s' : st) : Prop :=
  s_log s' = s_log s \/ exists e, s_log s' = e :: s_log s /\ ev_ok (s_log s) e.

Lemma log_start s t fs g j ti tc s0 : inv s -> inv (start s0 t fs g j ti tc) -> s_log s0 = s_log s -> In j (g_wait (s_grp s g)) ->
  g_info (s_grp s0 g) j = g_info (s_grp s g) j -> log_step s (start s0 t fs g j ti tc).
Proof.
  intros I I' L HJ E. right. cbn. rewrite L. eexists. split; [reflexivity|]. cbn. rewrite E. split.
  - apply (v_wait _ I g j HJ).
  - set (d := i_data (g_info (s_grp s g) j)). set (i := i_index (g_info (s_grp s g) j)).
    pose proof (v_count _ I' d i) as C. pose proof (v_once _ I' d i) as O. unfold start in C, O.
    cbn [with_act with_log put s_log s_new s_grp s_thr cnt is_launch is_start] in C, O. rewrite E in C.
    change (is_task d i (g_info (s_grp s g) j)) with (data_eqb d d && (i =? i)) in C.
    rewrite data_eqb_refl, Z.eqb_refl in C. cbn [andb] in C. rewrite L in *.
    match type of C with _ = _ + ?y + ?z =>
      assert (0 <= y) by (apply gsum_nonneg; intros; apply cnt_nonneg);
      assert (0 <= z) by (apply tot_nonneg; apply w_pend_nn) end.
    assert (0 <= cnt (is_start d i) (s_log s)) by apply cnt_nonneg. lia.
Qed.

Lemma log_take s t fs ti tc s' : inv s -> take_last s t fs ti tc = Ok s' -> inv s' -> log_step s s'.
Proof.
  unfold take_last. intros I H I'. destruct (unsnoc (s_active s)) as [[r g]|] eqn:U; [|discriminate].
  destruct (unsnoc (g_wait (s_grp s g))) as [[w j]|] eqn:W; [|discriminate]. apply unsnoc_some in W.
  assert (HJ : In j (g_wait (s_grp s g))) by (rewrite W; apply in_or_app; right; left; auto).
  destruct w; injection H as <-; apply log_start; auto; cbn; rewrite set_grp_same; auto.
Qed.

Lemma step_log s t ch s' : inv s -> ch_ok ch -> step s t ch = Ok s' -> inv s' -> log_step s s'.
Proof.
  intros I CO H I'. unfold step in H. destruct (nth_error (s_thr s) t) as [[|[a|i p] rest]|] eqn:HN.
  - destruct ch; injection H as <-; left; auto.
  - pose proof (top_fr _ _ _ _ HN) as FA. pose proof (v_act _ I a FA) as AO. unfold act_ok in AO.
    unfold step_act in H. destruct (a_pc a) as [|l i|l i g|l|l d base|n|n| | |g|i|i] eqn:PC.
    + destruct ch as [|l| |].
      * injection H as <-. left. auto.
      * destruct (a_handle a); injection H as <-; left; auto.
      * destruct (a_handle a) eqn:HA; injection H as <-; [left; auto|]. right. eexists. split; [reflexivity|].
        cbn. apply done_count; auto. intros b F E. rewrite <- (same_frame s (a_id a) a b I FA F eq_refl E).
        split; [rewrite PC; exact Logic.I|]. intros g X. congruence.
      * destruct (a_handle a) eqn:HA; [injection H as <-; left; auto|].
        destruct (a_task a) as [[[h d] i]|] eqn:TA; injection H as <-; [|left; auto]. right. eexists. split; [reflexivity|].
        cbn. pose proof (v_running _ I d i) as R. pose proof (v_count _ I d i) as C. pose proof (v_once _ I d i).
        assert (0 <= gsum (fun g => waiting d i (s_grp s g)) (s_new s)) by (apply gsum_nonneg; intros; apply cnt_nonneg).
        pose proof (tot_nonneg (w_pend d i) (s_thr s) (w_pend_nn _ _)).
        pose proof (tot_fr (w_run d i) _ _ (w_run_nn d i) FA) as X. cbn in X. rewrite TA, data_eqb_refl, Z.eqb_refl in X. cbn in X.
        assert (0 <= cnt (is_end d i) (s_log s)) by apply cnt_nonneg. lia.
    + destruct (i <? max_free)%nat; [destruct (nth i (s_free s) None)|]; injection H as <-; left; auto.
    + destruct (nth i (s_free s) None) as [h|]; [|injection H as <-; left; auto]. destruct (Nat.eqb h g); injection H as <-; left; auto.
    + destruct AO as (HA & LO). destruct (a_handle a) as [g|] eqn:HG; [|discriminate].
      destruct (_ || _) in H; [discriminate|]. destruct (_ && _) in H; [discriminate|]. injection H as <-. right.
      eexists. split; [reflexivity|]. cbn. split; [destruct LO as (? & ? & ? & ?); auto|].
      intros f c0 c1 c2 L. destruct (v_ln _ I _ _ _ _ _ _ L) as (_ & X). specialize (X a FA eq_refl). lia.
    + destruct (a_handle a) as [g|]; [|discriminate]. destruct (g_in (s_grp s g)); injection H as <-; left; auto.
    + destruct (a_handle a) as [g|]; [|discriminate]. injection H as <-; left; auto.
    + destruct (0 <? n); injection H as <-; left; auto.
    + destruct (a_handle a) as [g|] eqn:HA; [|discriminate]. destruct (Z.ltb_spec 0 (g_unf (s_grp s g))) as [U|U].
      * injection H as <-; left; auto.
      * destruct (sync_empty s t a rest g I HN HA PC U) as (W0 & D0 & GI). rewrite GI in H. injection H as <-. right.
        eexists. split; [reflexivity|]. cbn. apply done_count; auto.
        intros b F E. rewrite <- (same_frame s (a_id a) a b I FA F eq_refl E).
        split; [rewrite PC; exact Logic.I|]. intros h X. rewrite HA in X. injection X as <-. auto.
    + destruct (a_handle a) as [g|] eqn:HA; [|discriminate].
      destruct (unsnoc (g_wait (s_grp s g))) as [[w j]|] eqn:W.
      * apply unsnoc_some in W. assert (HJ : In j (g_wait (s_grp s g))) by (rewrite W; apply in_or_app; right; left; auto).
        destruct w as [|z w]; [destruct (erase g (s_active s)); [|discriminate]|]; injection H as <-;
          apply log_start; auto; cbn; rewrite set_grp_same; auto.
      * destruct (s_active s); [injection H as <-; left; auto|]. eapply log_take; eauto.
    + injection H as <-. left. auto.
    + destruct (i <? max_free)%nat; [destruct (nth i (s_free s) None)|]; injection H as <-; left; auto.
    + destruct (nth i (s_free s) None); injection H as <-; left; auto.
  - destruct p as [| |g]; cbn in H.
    + destruct (0 <? s_sem s); injection H as <-; left; auto.
    + destruct (s_active s); [injection H as <-; left; auto|]. eapply log_take; eauto.
    + injection H as <-. left. auto.
  - injection H as <-. left. auto.
Qed.

Lemma run_log sched s s' : inv s -> Forall (fun p => ch_ok (snd p)) sched -> run sched s = Ok s' -> s_bad s' = false ->
  (forall l1 e l2, s_log s = l1 ++ e :: l2 -> ev_ok l2 e) -> forall l1 e l2, s_log s' = l1 ++ e :: l2 -> ev_ok l2 e.
Proof.
  revert s. induction sched as [|[t ch] r IH]; cbn; intros s I F H B L; [injection H as <-; auto|].
  inversion F as [|? ? F1 F2]; subst. destruct (step s t ch) as [s1| |] eqn:E; try discriminate.
  assert (B1 : s_bad s1 = false). { destruct (s_bad s1) eqn:B1; auto. rewrite (run_bad _ _ _ H B1) in B. discriminate. }
  destruct (step_good s t ch I F1) as (_ & G). specialize (G s1 E B1). apply (IH s1); auto.
  destruct (step_log s t ch s1 I F1 E G) as [LE|(e & LE & EO)]; rewrite LE; auto.
  intros [|x l1] e' l2 X; cbn in X; injection X as X1 X2; [subst; auto|]. eapply L; eauto.
Qed.

Lemma run_not_undef sched s : inv s -> Forall (fun p => ch_ok (snd p)) sched ->
  (forall p1 p2 s1, sched = p1 ++ p2 -> run p1 s = Ok s1 -> s_bad s1 = false) -> run sched s <> Undef.
Proof.
  revert s. induction sched as [|[t ch] r IH]; cbn; intros s I F B; [discriminate|].
  inversion F as [|? ? F1 F2]; subst. destruct (step_good s t ch I F1) as (U & G).
  destruct (step s t ch) as [s1| |] eqn:E; try congruence.
  assert (B1 : s_bad s1 = false). { apply (B [(t, ch)] r s1); auto. cbn. rewrite E. auto. }
  apply IH; auto. intros p1 p2 s2 -> R. apply (B ((t, ch) :: p1) p2 s2); auto. cbn. rewrite E. auto.
Qed.

(** The events of a history say the same of the linear index and of the three indices. *)
Lemma call_start log d f c0 c1 c2 i0 i1 i2 :
  (forall l1 e l2, log = l1 ++ e :: l2 -> ev_ok l2 e) ->
  In (EvLaunch d f c0 c1 c2) log -> 0 <= i0 < c0 -> 0 <= i1 < c1 -> 0 <= i2 < c2 ->
  Z.of_nat (times (call_of d i0 i1 i2) log) = cnt (is_start d (i0 + c0 * (i1 + c1 * i2))) log.
Proof.
  intros OK HL H0 H1 H2. rewrite <- cnt_times. apply cnt_ext. intros e He. destruct e as [|x t ti tc| |]; auto.
  cbn. unfold is_task. rewrite same_block_eq. destruct (data_eqb (i_data x) d) eqn:ED; auto. cbn [andb]. apply data_eqb_eq in ED.
  apply in_split in He as (l1 & l2 & ->). destruct (OK l1 _ l2 eq_refl) as ((LX & IX) & _).
  assert (SAME : i_c0 x = c0 /\ i_c1 x = c1 /\ i_c2 x = c2).
  { rewrite ED in LX.
    assert (U : forall f c0 c1 c2 f' c0' c1' c2' l, (forall l1 e l2, l = l1 ++ e :: l2 -> ev_ok l2 e) ->
        In (EvLaunch d f c0 c1 c2) l -> In (EvLaunch d f' c0' c1' c2') l -> c0 = c0' /\ c1 = c1' /\ c2 = c2').
    { clear. intros f c0 c1 c2 f' c0' c1' c2'. induction l as [|e l IH]; intros OK A B; [contradiction|].
      assert (OK' : forall l1 e l2, l = l1 ++ e :: l2 -> ev_ok l2 e) by (intros l1 e' l2 ->; apply (OK (e :: l1) e' l2); auto).
      destruct A as [->|A], B as [B|B]; auto.
      - injection B as -> -> -> ->. auto.
      - destruct (OK [] _ l eq_refl) as (_ & N). exfalso. eapply N; eauto.
      - subst e. destruct (OK [] _ l eq_refl) as (_ & N). exfalso. eapply N; eauto. }
    apply (U (i_func x) (i_c0 x) (i_c1 x) (i_c2 x) f c0 c1 c2 (l1 ++ EvStart x t ti tc :: l2)); auto.
    apply in_or_app. right. right. auto. }
  destruct SAME as (E0 & E1 & E2). unfold task_index0, task_index1, task_index2. unfold task_count in IX. rewrite E0, E1, E2 in *.
  destruct (index_join c0 c1 c2 (i_index x)) as (A & B & C & D); try lia.
  destruct (Z.eqb_spec (i_index x) (i0 + c0 * (i1 + c1 * i2))) as [E|E].
  - rewrite E. destruct (index_split c0 c1 i0 i1 i2) as (X0 & X1 & X2); lia.
  - destruct (Z.eqb_spec (Z.rem (i_index x) c0) i0); auto. destruct (Z.eqb_spec (Z.rem (Z.quot (i_index x) c0) c1) i1); auto.
    destruct (Z.eqb_spec (Z.quot (i_index x) (c0 * c1)) i2); auto. exfalso. apply E. rewrite D at 1. congruence.
Qed.

Lemma end_return d i log : Z.of_nat (times (return_of d i) log) = cnt (is_end d i) log.
Proof. rewrite <- cnt_times. apply cnt_ext. intros e _. destruct e; auto. Qed.
