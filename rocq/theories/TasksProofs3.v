(** Steps of a launch preserve the invariant. *)
From Coq Require Import ZArith List Bool Arith Lia.
From Verif Require Import TasksModel TasksProofs TasksProofs2.
Import ListNotations.
Open Scope Z_scope.

Lemma set_grp_same s g x : set_grp s g x g = x.
Proof. unfold set_grp. rewrite Nat.eqb_refl. auto. Qed.
Lemma set_grp_other s g x h : h <> g -> set_grp s g x h = s_grp s h.
Proof. intros N. unfold set_grp. destruct (Nat.eqb_spec h g); congruence. Qed.

(** Groups nobody holds are empty. *)
Lemma unheld s g : inv s -> tot (w_hold g) (s_thr s) = 0 ->
  g_wait (s_grp s g) = [] /\ tot (w_dec g) (s_thr s) = 0 /\ tot (w_add g) (s_thr s) = 0 /\ g_unf (s_grp s g) = 0 /\ g_in (s_grp s g) = false.
Proof.
  intros I H. pose proof (v_held _ I g) as HE. pose proof (tot_nonneg (w_dec g) (s_thr s) (w_dec_nn g)).
  assert (X : ~ 0 < Z.of_nat (length (g_wait (s_grp s g))) + tot (w_dec g) (s_thr s)) by (intros Y; specialize (HE Y); lia).
  assert (W : g_wait (s_grp s g) = []) by (destruct (g_wait (s_grp s g)) as [|z q]; auto; exfalso; apply X; cbn [length]; lia).
  assert (A : tot (w_add g) (s_thr s) = 0) by (eapply (tot_only (w_hold g)); eauto using w_hold_nn, w_add_hold).
  pose proof (v_unf _ I g) as U. rewrite W in U, X. cbn [length] in U, X. split; auto. split; [lia|]. split; auto. split; [lia|].
  destruct (g_in (s_grp s g)) eqn:E; auto. apply (v_in _ I) in E. congruence.
Qed.

(** A group is obtained: [s1] is [s] but for the group's contents and the free slots. *)
Lemma inv_get s s1 t a rest g l : inv s -> nth_error (s_thr s) t = Some (FAct a :: rest) ->
  a_handle a = None -> quiet (a_pc a) -> launch_ok l ->
  s_thr s1 = s_thr s -> s_active s1 = s_active s -> s_act s1 = s_act s -> s_log s1 = s_log s ->
  length (s_free s1) = max_free -> (s_new s <= s_new s1)%nat -> (g < s_new s1)%nat ->
  (s_new s1 = s_new s \/ s_new s1 = S (s_new s)) ->
  tot (w_hold g) (s_thr s) = 0 -> slots g s1 = 0 -> (forall h, h <> g -> slots h s1 <= slots h s) ->
  (forall h, h <> g -> s_grp s1 h = s_grp s h) ->
  (s_grp s1 g = s_grp s g \/ s_grp s1 g = new_group) ->
  inv (put s1 t (FAct (set_handle a (Some g) (PFill l)) :: rest)).
Proof.
  intros I HN HA Q LO T1 T2 T3 T4 T5 N1 N2 N3 H0 S0 SL GO GG.
  set (a' := set_handle a (Some g) (PFill l)).
  pose proof (unheld s g I H0) as (W0 & D0 & A0 & U0 & IN0).
  assert (HN1 : nth_error (s_thr s1) t = Some (FAct a :: rest)) by (rewrite T1; auto).
  assert (TW : forall w, tot w (upd t (FAct a' :: rest) (s_thr s1)) = tot w (s_thr s) - w (FAct a) + w (FAct a')).
  { intros w. rewrite T1. rewrite (tot_upd _ _ _ _ _ HN). cbn [ws]. lia. }
  assert (TH : forall h, tot (w_hold h) (upd t (FAct a' :: rest) (s_thr s1)) = tot (w_hold h) (s_thr s) + b2z (Nat.eqb g h)).
  { intros h. rewrite TW. cbn. rewrite HA. cbn. lia. }
  assert (TO : forall h x, tot (w_own h x) (s_thr s) <= tot (w_own h x) (upd t (FAct a' :: rest) (s_thr s1)) /\
                           (h <> g -> tot (w_own h x) (upd t (FAct a' :: rest) (s_thr s1)) = tot (w_own h x) (s_thr s))).
  { intros h x. rewrite TW. cbn. rewrite HA. cbn. split.
    - destruct (Nat.eqb g h), (Nat.eqb (a_id a) x); cbn; lia.
    - intros N. destruct (Nat.eqb_spec g h); [congruence|]. cbn. lia. }
  assert (TI : forall w, w (FAct a') = w (FAct a) -> tot w (upd t (FAct a' :: rest) (s_thr s1)) = tot w (s_thr s)).
  { intros w E. rewrite TW. lia. }
  assert (TD : forall h, tot (w_dec h) (upd t (FAct a' :: rest) (s_thr s1)) = tot (w_dec h) (s_thr s)).
  { intros h. apply TI. rewrite !quiet_dec; cbn; auto. }
  assert (TA : forall h, tot (w_add h) (upd t (FAct a' :: rest) (s_thr s1)) = tot (w_add h) (s_thr s)).
  { intros h. apply TI. rewrite !quiet_add; cbn; auto. }
  assert (TP : forall d i, tot (w_pend d i) (upd t (FAct a' :: rest) (s_thr s1)) = tot (w_pend d i) (s_thr s)).
  { intros d i. apply TI. rewrite !quiet_pend; cbn; auto. }
  assert (FR : forall x, fr (upd t (FAct a' :: rest) (s_thr s1)) x -> x = FAct a' \/ others (s_thr s) t rest x).
  { intros x F. rewrite T1 in F. apply (fr_top _ _ _ _ _ _ HN F). }
  assert (OF : forall x, others (s_thr s) t rest x -> fr (s_thr s) x) by (intros x; eapply others_top; eauto).
  pose proof (top_fr _ _ _ _ HN) as FA.
  assert (GW : g_wait (s_grp s1 g) = [] /\ g_unf (s_grp s1 g) = 0 /\ g_in (s_grp s1 g) = false).
  { destruct GG as [->| ->]; auto. }
  destruct GW as (GW & GU & GI).
  assert (OWN0 : forall x, tot (w_own g x) (s_thr s) = 0).
  { intros x. eapply (tot_only (w_hold g)); eauto using w_hold_nn. intros f E. pose proof (w_own_hold g x f).
    pose proof (w_own_nn g x f). lia. }
  assert (NH : forall b, fr (s_thr s) (FAct b) -> a_handle b <> Some g).
  { intros b F E. pose proof (tot_fr (w_hold g) _ _ (w_hold_nn g) F) as X. rewrite (hold_some b g E) in X. lia. }
  dinv I. constructor; unf; rewrite ?T2, ?T3, ?T4; auto.
  - intros h. rewrite TH. destruct (Nat.eqb_spec g h) as [<-|N]; cbn; [lia|]. specialize (ONE h). specialize (SL h ltac:(auto)). lia.
  - intros h H. rewrite TH. destruct (Nat.eqb_spec g h) as [<-|N]; cbn; [lia|]. specialize (NEW h ltac:(lia)).
    specialize (SL h ltac:(auto)). lia.
  - intros h. rewrite TA, TD. destruct (Nat.eq_dec h g) as [->|N]; [|rewrite GO; auto]. rewrite GW, GU, A0, D0. auto.
  - intros h. rewrite TD, TH. destruct (Nat.eq_dec h g) as [->|N]; [rewrite GW, D0; cbn; lia|].
    rewrite GO by auto. intros X. rewrite HELD by auto. destruct (Nat.eqb_spec g h); [congruence|]. cbn. lia.
  - intros h. rewrite ACTIVE. destruct (Nat.eq_dec h g) as [->|N]; [rewrite GW, W0; tauto|rewrite GO; tauto].
  - intros h. destruct (Nat.eq_dec h g) as [->|N]; [rewrite GW, GI; intuition discriminate|rewrite GO; auto].
  - intros h j Hj. destruct (Nat.eq_dec h g) as [->|N]; [rewrite GW in Hj; contradiction|]. rewrite GO in * by auto.
    destruct (TO h (fst (i_data (g_info (s_grp s h) j)))) as (_ & E). rewrite E by auto. auto.
  - intros h. destruct (Nat.eq_dec h g) as [->|N]; [|rewrite GO; auto]. destruct GG as [->| ->]; auto. cbn. unfold max_tasks. lia.
  - intros x h d i F T. destruct (FR x F) as [->|F0].
    + cbn [task_of] in T. destruct (TASK (FAct a) h d i FA T) as (X & Y). destruct (Nat.eq_dec h g) as [->|N].
      * rewrite OWN0 in X. lia.
      * destruct (TO h (fst d)) as (_ & E). rewrite E; auto.
    + destruct (TASK x h d i (OF x F0) T) as (X & Y). destruct (Nat.eq_dec h g) as [->|N].
      * rewrite OWN0 in X. lia.
      * destruct (TO h (fst d)) as (_ & E). rewrite E; auto.
  - intros b F. destruct (FR _ F) as [X|F0].
    + injection X as ->. cbn. split; [discriminate|auto].
    + apply (act_ok_mono s); auto.
      * intros e He. cbn. rewrite T4. auto.
      * intros h Hh. cbn. rewrite TD. assert (h <> g) by (intros ->; exact (NH b (OF _ F0) Hh)). rewrite GO by auto. auto.
  - intros u gs G. destruct (stack_upd _ _ _ _ _ _ HN1 G) as [->|G'].
    + specialize (STACK _ _ HN). cbn [stack_ok task_of a' set_handle a_task a_id] in *. destruct rest as [|f' r]; auto.
      destruct STACK as (S1 & b & h & d & i & X & Y & Z & O). split; auto. injection X as <-. exists a', h, d, i. auto.
    + rewrite T1 in G'. eauto.
  - intros x. rewrite TI; auto.
  - intros x. rewrite TI; auto.
  - intros d i. rewrite TP. rewrite COUNT. f_equal. f_equal.
    assert (X : forall h, waiting d i (s_grp s1 h) = waiting d i (s_grp s h)).
    { intros h. destruct (Nat.eq_dec h g) as [->|N]; [|rewrite GO; auto]. unfold waiting. rewrite GW, W0. auto. }
    destruct N3 as [->|N3].
    + apply gsum_ext. auto.
    + rewrite N3. cbn [gsum]. rewrite (gsum_ext (fun g0 => waiting d i (s_grp s1 g0)) (fun g0 => waiting d i (s_grp s g0))) by auto.
      rewrite X. assert (E : g_wait (s_grp s (s_new s)) = []).
      { destruct (g_wait (s_grp s (s_new s))) eqn:E; auto. assert (Y : tot (w_hold (s_new s)) (s_thr s) = 1).
        { apply HELD. rewrite E. cbn [length]. pose proof (tot_nonneg (w_dec (s_new s)) (s_thr s) (w_dec_nn (s_new s))). lia. }
        pose proof (NEW (s_new s) (le_n _)). pose proof (cnt_nonneg (fun x => nat_eqb_opt x (s_new s)) (s_free s)). lia. }
      unfold waiting at 2. rewrite E. cbn. lia.
  - intros d i. rewrite TI; auto.
  - intros x ln h c0 c1 c2 L. destruct (LN _ _ _ _ _ _ L) as (A & B). split; auto.
    intros b F E. destruct (FR _ F) as [X|F0]; [|eauto]. injection X as ->. cbn in *. apply (B a); auto.
Qed.

(** TaskInfo structures are filled in. *)
Lemma inv_fill s t a rest g l : inv s -> nth_error (s_thr s) t = Some (FAct a :: rest) ->
  a_handle a = Some g -> a_pc a = PFill l -> launch_ok l -> g_next (s_grp s g) + count_of l <= max_tasks ->
  inv (with_log
        (put (with_grp s g (fill (s_grp s g) l (a_id a, a_ln a) (count_of l))) t
           (FAct {| a_id := a_id a; a_task := a_task a; a_handle := a_handle a; a_ln := S (a_ln a);
                    a_pc := PPush l (a_id a, a_ln a) (g_next (s_grp s g)) |} :: rest))
        (EvLaunch (a_id a, a_ln a) (l_func l) (l_c0 l) (l_c1 l) (l_c2 l))).
Proof.
  intros I HN HA PC LO MX. set (n := count_of l). set (d0 := (a_id a, a_ln a)). set (x0 := s_grp s g).
  set (a' := {| a_id := a_id a; a_task := a_task a; a_handle := a_handle a; a_ln := S (a_ln a); a_pc := PPush l d0 (g_next x0) |}).
  assert (NP : 0 < n) by (unfold n, count_of; destruct LO as (A & B & C & _); nia).
  destruct (holder s t a rest g I HN HA) as (H1 & S1 & GN & OTH & _).
  assert (TW : forall w, tot w (upd t (FAct a' :: rest) (s_thr s)) = tot w (s_thr s) - w (FAct a) + w (FAct a')).
  { intros w. rewrite (tot_upd _ _ _ _ _ HN). cbn [ws]. lia. }
  assert (TI : forall w, w (FAct a') = w (FAct a) -> tot w (upd t (FAct a' :: rest) (s_thr s)) = tot w (s_thr s)).
  { intros w E. rewrite TW. lia. }
  assert (TD : forall h, tot (w_dec h) (upd t (FAct a' :: rest) (s_thr s)) = tot (w_dec h) (s_thr s)).
  { intros h. apply TI. unfold w_dec. cbn. rewrite PC. auto. }
  assert (TA : forall h, tot (w_add h) (upd t (FAct a' :: rest) (s_thr s)) = tot (w_add h) (s_thr s)).
  { intros h. apply TI. unfold w_add. cbn. rewrite PC. auto. }
  assert (FR : forall x, fr (upd t (FAct a' :: rest) (s_thr s)) x -> x = FAct a' \/ others (s_thr s) t rest x).
  { intros x F. apply (fr_top _ _ _ _ _ _ HN F). }
  assert (OF : forall x, others (s_thr s) t rest x -> fr (s_thr s) x) by (intros x; eapply others_top; eauto).
  pose proof (top_fr _ _ _ _ HN) as FA.
  assert (IDA : (a_id a < s_act s)%nat).
  { destruct (le_lt_dec (s_act s) (a_id a)) as [L|L]; auto. pose proof (v_idnew _ I _ L) as X.
    pose proof (tot_fr (w_id (a_id a)) _ _ (w_id_nn _) FA) as Y. cbn in Y. rewrite Nat.eqb_refl in Y. cbn in Y. lia. }
  assert (INF : forall j, In j (g_wait x0) -> g_info (fill x0 l d0 n) j = g_info x0 j).
  { intros j Hj. destruct (v_wait _ I g j Hj) as (B & _). cbn. fold x0 in B.
    destruct (Z.leb_spec (g_next x0) j); [lia|]. auto. }
  assert (GW : forall h, g_wait (set_grp s g (fill x0 l d0 n) h) = g_wait (s_grp s h) /\
                         g_unf (set_grp s g (fill x0 l d0 n) h) = g_unf (s_grp s h) /\
                         g_in (set_grp s g (fill x0 l d0 n) h) = g_in (s_grp s h)).
  { intros h. destruct (Nat.eq_dec h g) as [->|N]; [rewrite set_grp_same; cbn; auto|rewrite set_grp_other; auto]. }
  dinv I. constructor; unf; auto.
  - intros h. rewrite TI; auto.
  - intros h. rewrite TI; auto.
  - intros h. rewrite TA, TD. destruct (GW h) as (-> & -> & _). auto.
  - intros h. rewrite TD, TI by auto. destruct (GW h) as (-> & _ & _). auto.
  - intros h. destruct (GW h) as (-> & _ & _). auto.
  - intros h. destruct (GW h) as (-> & _ & ->). auto.
  - intros h j. destruct (GW h) as (-> & _ & _). intros Hj. rewrite TI by auto. destruct (WAIT h j Hj) as (A & B & C).
    destruct (Nat.eq_dec h g) as [->|N].
    + rewrite set_grp_same. rewrite INF by auto. split; [cbn; fold x0 in A; lia|]. split; [|auto].
      eapply launched_mono; [|exact B]. intros e He. right. auto.
    + rewrite set_grp_other by auto. split; auto. split; auto. eapply launched_mono; [|exact B]. intros e He. right. auto.
  - intros h. destruct (Nat.eq_dec h g) as [->|N]; [rewrite set_grp_same|rewrite set_grp_other; auto].
    cbn [fill g_next]. specialize (NEXT g). fold x0 in NEXT. fold x0 in MX. fold n in MX. lia.
  - intros x h d i F T. rewrite TI by auto. destruct (FR x F) as [->|F0]; [|eauto].
    apply (TASK (FAct a) h d i FA T).
  - intros b F. destruct (FR _ F) as [X|F0].
    + injection X as ->. unfold act_ok. cbn. split; auto. split; auto. exists g. rewrite set_grp_same. split; auto.
      split; [cbn; fold n; lia|]. split; [apply NEXT|]. intros j Hj. cbn in Hj |- *. change (count_of l) with n in Hj.
      destruct (Z.leb_spec (g_next x0) j); [|lia]. destruct (Z.ltb_spec j (g_next x0 + n)); [|lia]. cbn [andb].
      split; auto. split; [left; auto|]. cbn. unfold task_count. cbn. change (l_c0 l * l_c1 l * l_c2 l) with n. lia.
    + apply (act_ok_mono s); auto.
      * intros e He. right. auto.
      * intros h Hh. cbn. rewrite TD. assert (h <> g) by (intros ->; exact (OTH b F0 Hh)). rewrite set_grp_other by auto. auto.
  - intros u gs G. destruct (stack_upd _ _ _ _ _ _ HN G) as [->|G']; [|eauto].
    specialize (STACK _ _ HN). cbn [stack_ok task_of a' a_task a_id] in *. destruct rest as [|f' r]; auto.
    destruct STACK as (S2 & b & h & d & i & X & Y & Z & O). split; auto. injection X as <-. exists a', h, d, i. auto.
  - intros x. rewrite TI; auto.
  - intros x. rewrite TI; auto.
  - intros d i. rewrite TW. cbn [cnt is_launch is_start]. rewrite COUNT.
    rewrite (gsum_ext (fun h => waiting d i (set_grp s g (fill x0 l d0 n) h)) (fun h => waiting d i (s_grp s h))).
    + unfold w_pend. rewrite PC. cbn [a' a_pc]. change (l_c0 l * l_c1 l * l_c2 l) with n. unfold b2z. fold n.
      destruct (data_eqb d0 d && (0 <=? i) && (i <? n)); lia.
    + intros h _. unfold waiting. destruct (GW h) as (-> & _ & _). apply cnt_ext. intros j Hj. f_equal.
      destruct (Nat.eq_dec h g) as [->|N]; [rewrite set_grp_same; auto|rewrite set_grp_other; auto].
  - intros d i. rewrite TI by auto. cbn [cnt is_start is_end]. rewrite RUNNING. lia.
  - intros x ln h c0 c1 c2 [X|L].
    + injection X as <- <- <- <- <- <-. split; auto. intros b F E. destruct (FR _ F) as [X|F0].
      * injection X as ->. cbn. lia.
      * exfalso. pose proof (others_le (w_id (a_id a)) _ t [FAct a] rest _ (w_id_nn _) HN F0) as Q. cbn in Q.
        rewrite E, Nat.eqb_refl in Q. cbn in Q. specialize (ID (a_id a)). lia.
    + destruct (LN _ _ _ _ _ _ L) as (A & B). split; auto.
      intros b F E. destruct (FR _ F) as [X|F0]; [|eauto]. injection X as ->. cbn in *. specialize (B a FA E). lia.
  - intros d i. cbn [cnt is_launch]. specialize (ONCE d i).
    destruct (data_eqb d0 d && (0 <=? i) && (i <? l_c0 l * l_c1 l * l_c2 l)) eqn:E; [|lia].
    apply andb_prop in E as [E _]. apply andb_prop in E as [E _]. apply data_eqb_eq in E. subst d.
    assert (X : ~ 0 < cnt (is_launch d0 i) (s_log s)).
    { intros P. apply cnt_pos in P as (e & He & P). destruct e; try discriminate. cbn in P.
      apply andb_prop in P as [P _]. apply andb_prop in P as [P _]. apply data_eqb_eq in P. subst d.
      destruct (LN _ _ _ _ _ _ He) as (_ & B). specialize (B a FA eq_refl). lia. }
    pose proof (cnt_nonneg (is_launch d0 i) (s_log s)). lia.
Qed.

(** They are pushed. *)
Lemma inv_push s t a rest g l d0 base act' : inv s -> nth_error (s_thr s) t = Some (FAct a :: rest) ->
  a_handle a = Some g -> a_pc a = PPush l d0 base ->
  act' = (if g_in (s_grp s g) then s_active s else s_active s ++ [g]) ->
  inv (put (with_active (with_grp s g (set_wait (s_grp s g) (g_wait (s_grp s g) ++ range base (count_of l)) true)) act') t
        (FAct (set_pc a (PAdd (count_of l))) :: rest)).
Proof.
  intros I HN HA PC EA. set (n := count_of l). set (x0 := s_grp s g). set (a' := set_pc a (PAdd n)).
  destruct (holder s t a rest g I HN HA) as (H1 & S1 & GN & OTH & _).
  pose proof (top_fr _ _ _ _ HN) as FA. pose proof (v_act _ I a FA) as OKA. unfold act_ok in OKA. rewrite PC in OKA.
  destruct OKA as (LO & D0 & g' & E & B1 & B2 & B3). rewrite HA in E. injection E as <-. fold x0 n in B1, B3.
  assert (NP : 0 < n) by (unfold n, count_of; destruct LO as (A & B & C & _); nia).
  assert (NE : g_wait x0 ++ range base n <> []).
  { intros X. apply app_eq_nil in X as [_ X]. assert (Y : In base (range base n)) by (apply range_in; lia). rewrite X in Y. contradiction. }
  assert (TW : forall w, tot w (upd t (FAct a' :: rest) (s_thr s)) = tot w (s_thr s) - w (FAct a) + w (FAct a')).
  { intros w. rewrite (tot_upd _ _ _ _ _ HN). cbn [ws]. lia. }
  assert (TI : forall w, w (FAct a') = w (FAct a) -> tot w (upd t (FAct a' :: rest) (s_thr s)) = tot w (s_thr s)).
  { intros w E. rewrite TW. lia. }
  assert (TD : forall h, tot (w_dec h) (upd t (FAct a' :: rest) (s_thr s)) = tot (w_dec h) (s_thr s)).
  { intros h. apply TI. unfold w_dec. cbn. rewrite PC. auto. }
  assert (TA : forall h, tot (w_add h) (upd t (FAct a' :: rest) (s_thr s)) = tot (w_add h) (s_thr s) + (if Nat.eqb g h then n else 0)).
  { intros h. rewrite TW. unfold w_add. cbn. rewrite PC, HA. cbn. lia. }
  assert (FR : forall x, fr (upd t (FAct a' :: rest) (s_thr s)) x -> x = FAct a' \/ others (s_thr s) t rest x).
  { intros x F. apply (fr_top _ _ _ _ _ _ HN F). }
  assert (OF : forall x, others (s_thr s) t rest x -> fr (s_thr s) x) by (intros x; eapply others_top; eauto).
  set (x1 := set_wait x0 (g_wait x0 ++ range base n) true).
  assert (OW : tot (w_own g (fst d0)) (s_thr s) = 1).
  { assert (X : w_own g (fst d0) (FAct a) = 1). { cbn. rewrite HA, D0. cbn. rewrite !Nat.eqb_refl. auto. }
    pose proof (tot_fr (w_own g (fst d0)) _ _ (w_own_nn _ _) FA).
    assert (tot (w_own g (fst d0)) (s_thr s) <= tot (w_hold g) (s_thr s)).
    { apply tot_le. intros fs _. induction fs as [|f fs IH]; cbn; [lia|]. pose proof (w_own_hold g (fst d0) f). lia. }
    lia. }
  assert (GIN : g_in x0 = true <-> In g (s_active s)) by (unfold x0; rewrite (v_in _ I), (v_active _ I); tauto).
  dinv I. constructor; unf; auto.
  - intros h. rewrite TI; auto.
  - intros h. rewrite TI; auto.
  - intros h. rewrite TA, TD. destruct (Nat.eq_dec h g) as [->|N].
    + rewrite set_grp_same, Nat.eqb_refl. cbn [x1 set_wait g_unf g_wait]. rewrite app_length, Nat2Z.inj_add, range_length by lia.
      specialize (UNF g). fold x0 in UNF. lia.
    + rewrite set_grp_other by auto. destruct (Nat.eqb_spec g h); [congruence|]. specialize (UNF h). lia.
  - intros h. rewrite TD, TI by auto. destruct (Nat.eq_dec h g) as [->|N]; [auto|]. rewrite set_grp_other; auto.
  - subst act'. fold x0. destruct (g_in x0) eqn:E; auto.
    assert (~ In g (s_active s)) by (intros X; apply GIN in X; congruence).
    clear - NODUP H. induction (s_active s) as [|y q IH]; cbn; [constructor; [intros []|constructor]|].
    apply NoDup_cons_iff in NODUP as [A B]. constructor.
    + rewrite in_app_iff. intros [X|[X|[]]]; [auto|subst]. apply H. left; auto.
    + apply IH; auto. intros X. apply H. right; auto.
  - intros h. destruct (Nat.eq_dec h g) as [->|N].
    + rewrite set_grp_same. cbn [x1 set_wait g_wait]. split; [auto|]. intros _. subst act'. fold x0.
      destruct (g_in x0) eqn:E; [apply GIN; auto|]. apply in_or_app. right. left. auto.
    + rewrite set_grp_other by auto. rewrite <- ACTIVE. subst act'. fold x0. destruct (g_in x0); [tauto|].
      rewrite in_app_iff. cbn. intuition congruence.
  - intros h. destruct (Nat.eq_dec h g) as [->|N]; [rewrite set_grp_same; cbn; tauto|rewrite set_grp_other; auto].
  - intros h j. destruct (Nat.eq_dec h g) as [->|N].
    + rewrite set_grp_same. cbn [x1 set_wait g_wait g_info g_next]. rewrite TI by auto. intros Hj. apply in_app_or in Hj as [Hj|Hj].
      * apply (WAIT g j Hj).
      * apply range_in in Hj. destruct (B3 j Hj) as (X & Y). split; [fold x0; lia|]. split; [exact Y|]. fold x0. rewrite X. exact OW.
    + rewrite set_grp_other by auto. rewrite TI by auto. auto.
  - intros h. destruct (Nat.eq_dec h g) as [->|N]; [rewrite set_grp_same; cbn; apply NEXT|rewrite set_grp_other; auto].
  - intros x h d i F T. rewrite TI by auto. destruct (FR x F) as [->|F0]; [|eauto].
    apply (TASK (FAct a) h d i FA T).
  - intros b F. destruct (FR _ F) as [X|F0].
    + injection X as ->. unfold act_ok. cbn. split; [congruence|auto].
    + apply (act_ok_mono s); auto. intros h Hh. cbn. rewrite TD. assert (h <> g) by (intros ->; exact (OTH b F0 Hh)).
      rewrite set_grp_other by auto. auto.
  - intros u gs G. destruct (stack_upd _ _ _ _ _ _ HN G) as [->|G']; [|eauto]. eapply core_stack; [|apply (STACK _ _ HN)]. auto.
  - intros x. rewrite TI; auto.
  - intros x. rewrite TI; auto.
  - intros d i. rewrite TW, COUNT.
    rewrite (gsum_upd (fun h => waiting d i (s_grp s h)) (fun h => waiting d i (set_grp s g x1 h)) (s_new s) g GN)
      by (intros h N; rewrite set_grp_other; auto).
    cbv beta. rewrite set_grp_same.
    assert (W1 : waiting d i x1 = waiting d i x0 + cnt (fun j => is_task d i (g_info x0 j)) (range base n)).
    { unfold waiting. cbn [x1 set_wait g_wait g_info]. apply cnt_app. }
    rewrite W1. unfold w_pend. rewrite PC. cbn [a' set_pc a_pc]. change (count_of l) with n.
    assert (X : cnt (fun j => is_task d i (g_info x0 j)) (range base n) = b2z (data_eqb d0 d && (0 <=? i) && (i <? n))).
    { rewrite (cnt_ext _ (fun j => data_eqb d0 d && (j - base =? i))).
      - unfold range. rewrite cnt_map. destruct (data_eqb d0 d); cbn [andb].
        + rewrite (cnt_ext _ (fun k => Z.of_nat k =? i)).
          * rewrite cnt_seq. cbn. rewrite Z2Nat.id by lia. auto.
          * intros k _. f_equal. lia.
        + clear. induction (seq 0 (Z.to_nat n)); cbn; auto.
      - intros j Hj. apply range_in in Hj. destruct (B3 j Hj) as (Y & _). rewrite Y. auto. }
    rewrite X. fold x0. lia.
  - intros d i. rewrite TI; auto.
  - intros x ln h c0 c1 c2 L. destruct (LN _ _ _ _ _ _ L) as (A & B). split; auto.
    intros b F E. destruct (FR _ F) as [X|F0]; [|eauto]. injection X as ->. cbn in *. apply (B a); auto.
Qed.

(** They are counted. *)
Lemma inv_add s t a rest g n : inv s -> nth_error (s_thr s) t = Some (FAct a :: rest) ->
  a_handle a = Some g -> a_pc a = PAdd n ->
  inv (put (with_grp s g (set_unf (s_grp s g) (g_unf (s_grp s g) + n))) t (FAct (set_pc a (PPost n)) :: rest)).
Proof.
  intros I HN HA PC. set (x0 := s_grp s g). set (a' := set_pc a (PPost n)).
  pose proof (top_fr _ _ _ _ HN) as FA.
  assert (TW : forall w, tot w (upd t (FAct a' :: rest) (s_thr s)) = tot w (s_thr s) - w (FAct a) + w (FAct a')).
  { intros w. rewrite (tot_upd _ _ _ _ _ HN). cbn [ws]. lia. }
  assert (TI : forall w, w (FAct a') = w (FAct a) -> tot w (upd t (FAct a' :: rest) (s_thr s)) = tot w (s_thr s)).
  { intros w E. rewrite TW. lia. }
  assert (TD : forall h, tot (w_dec h) (upd t (FAct a' :: rest) (s_thr s)) = tot (w_dec h) (s_thr s)).
  { intros h. apply TI. unfold w_dec. cbn. rewrite PC. auto. }
  assert (TP : forall d i, tot (w_pend d i) (upd t (FAct a' :: rest) (s_thr s)) = tot (w_pend d i) (s_thr s)).
  { intros d i. apply TI. unfold w_pend. cbn. rewrite PC. auto. }
  assert (TA : forall h, tot (w_add h) (upd t (FAct a' :: rest) (s_thr s)) = tot (w_add h) (s_thr s) - (if Nat.eqb g h then n else 0)).
  { intros h. rewrite TW. unfold w_add. cbn. rewrite PC, HA. cbn. lia. }
  assert (FR : forall x, fr (upd t (FAct a' :: rest) (s_thr s)) x -> x = FAct a' \/ others (s_thr s) t rest x).
  { intros x F. apply (fr_top _ _ _ _ _ _ HN F). }
  assert (OF : forall x, others (s_thr s) t rest x -> fr (s_thr s) x) by (intros x; eapply others_top; eauto).
  set (x1 := set_unf x0 (g_unf x0 + n)).
  assert (GS : forall h, g_wait (set_grp s g x1 h) = g_wait (s_grp s h) /\ g_info (set_grp s g x1 h) = g_info (s_grp s h) /\
                         g_next (set_grp s g x1 h) = g_next (s_grp s h) /\ g_in (set_grp s g x1 h) = g_in (s_grp s h)).
  { intros h. destruct (Nat.eq_dec h g) as [->|N]; [rewrite set_grp_same; cbn; auto|rewrite set_grp_other; auto]. }
  dinv I. constructor; unf; auto.
  - intros h. rewrite TI; auto.
  - intros h. rewrite TI; auto.
  - intros h. rewrite TA, TD. specialize (UNF h). destruct (GS h) as (-> & _). destruct (Nat.eq_dec h g) as [->|N].
    + rewrite set_grp_same, Nat.eqb_refl. cbn [x1 set_unf g_unf]. fold x0 in UNF. fold x0. lia.
    + rewrite set_grp_other by auto. destruct (Nat.eqb_spec g h); [congruence|]. lia.
  - intros h. rewrite TD, TI by auto. destruct (GS h) as (-> & _). auto.
  - intros h. destruct (GS h) as (-> & _). auto.
  - intros h. destruct (GS h) as (-> & _ & _ & ->). auto.
  - intros h j. destruct (GS h) as (-> & -> & -> & _). rewrite TI by auto. auto.
  - intros h. destruct (GS h) as (_ & _ & -> & _). auto.
  - intros x h d i F T. rewrite TI by auto. destruct (FR x F) as [->|F0]; [|eauto].
    apply (TASK (FAct a) h d i FA T).
  - intros b F. destruct (FR _ F) as [X|F0].
    + injection X as ->. unfold act_ok. cbn. congruence.
    + apply (act_ok_mono s); auto. intros h Hh. cbn. rewrite TD. destruct (GS h) as (-> & -> & -> & _). auto.
  - intros u gs G. destruct (stack_upd _ _ _ _ _ _ HN G) as [->|G']; [|eauto]. eapply core_stack; [|apply (STACK _ _ HN)]. auto.
  - intros x. rewrite TI; auto.
  - intros x. rewrite TI; auto.
  - intros d i. rewrite TP, COUNT. f_equal. f_equal. apply gsum_ext. intros h _. unfold waiting. destruct (GS h) as (-> & -> & _). auto.
  - intros d i. rewrite TI; auto.
  - intros x ln h c0 c1 c2 L. destruct (LN _ _ _ _ _ _ L) as (A & B). split; auto.
    intros b F E. destruct (FR _ F) as [X|F0]; [|eauto]. injection X as ->. cbn in *. apply (B a); auto.
Qed.
