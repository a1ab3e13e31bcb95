(** Steps of sync, of workers and of returning tasks preserve the invariant. *)
From Coq Require Import ZArith List Bool Arith Lia.
From Verif Require Import TasksModel TasksProofs TasksProofs2 TasksProofs3.
Import ListNotations.
Open Scope Z_scope.

(** An event that is not about tasks. *)
Lemma inv_log s a : inv s -> inv (with_log s (EvSync a)).
Proof.
  intros I. dinv I. constructor; unf; auto.
  - intros g j Hj. destruct (WAIT g j Hj) as (A & B & C). split; auto. split; auto.
    eapply launched_mono; [|exact B]. intros e He. right. auto.
  - intros b F. apply (act_ok_mono s); auto. intros e He. right. auto.
  - intros x ln h c0 c1 c2 [X|L]; [discriminate|]. eauto.
Qed.

(** The counter of a group is zero at the end of sync. *)
Lemma sync_empty s t a rest g : inv s -> nth_error (s_thr s) t = Some (FAct a :: rest) ->
  a_handle a = Some g -> a_pc a = PSync -> g_unf (s_grp s g) <= 0 ->
  g_wait (s_grp s g) = [] /\ tot (w_dec g) (s_thr s) = 0 /\ g_in (s_grp s g) = false.
Proof.
  intros I HN HA PC U. destruct (holder s t a rest g I HN HA) as (H1 & S1 & GN & OTH & AD).
  rewrite (quiet_add g a) in AD by (rewrite PC; exact Logic.I).
  pose proof (v_unf _ I g) as E. rewrite AD in E. pose proof (tot_nonneg (w_dec g) (s_thr s) (w_dec_nn g)).
  assert (W : g_wait (s_grp s g) = []). { destruct (g_wait (s_grp s g)) as [|z q]; auto. cbn [length] in E. lia. }
  rewrite W in E. cbn [length] in E. split; auto. split; [lia|].
  destruct (g_in (s_grp s g)) eqn:X; auto. apply (v_in _ I) in X. congruence.
Qed.

Lemma inv_done s t a rest g : inv s -> nth_error (s_thr s) t = Some (FAct a :: rest) ->
  a_handle a = Some g -> a_pc a = PSync -> g_unf (s_grp s g) <= 0 ->
  inv (put (with_grp s g (reset (s_grp s g))) t (FAct (set_pc a (PPut 0)) :: rest)).
Proof.
  intros I HN HA PC U0. set (x0 := s_grp s g). set (a' := set_pc a (PPut 0)).
  destruct (holder s t a rest g I HN HA) as (H1 & S1 & GN & OTH & AD).
  rewrite (quiet_add g a) in AD by (rewrite PC; exact Logic.I).
  destruct (sync_empty s t a rest g I HN HA PC U0) as (W0 & D0 & _).
  pose proof (top_fr _ _ _ _ HN) as FA.
  assert (TI : forall w, w (FAct a') = w (FAct a) -> tot w (upd t (FAct a' :: rest) (s_thr s)) = tot w (s_thr s)).
  { intros w E. rewrite (tot_upd _ _ _ _ _ HN). cbn [ws]. lia. }
  assert (TD : forall h, tot (w_dec h) (upd t (FAct a' :: rest) (s_thr s)) = tot (w_dec h) (s_thr s)).
  { intros h. apply TI. unfold w_dec. cbn. rewrite PC. auto. }
  assert (TP : forall d i, tot (w_pend d i) (upd t (FAct a' :: rest) (s_thr s)) = tot (w_pend d i) (s_thr s)).
  { intros d i. apply TI. unfold w_pend. cbn. rewrite PC. auto. }
  assert (TA : forall h, tot (w_add h) (upd t (FAct a' :: rest) (s_thr s)) = tot (w_add h) (s_thr s)).
  { intros h. apply TI. unfold w_add. cbn. rewrite PC. auto. }
  assert (FR : forall x, fr (upd t (FAct a' :: rest) (s_thr s)) x -> x = FAct a' \/ others (s_thr s) t rest x).
  { intros x F. apply (fr_top _ _ _ _ _ _ HN F). }
  assert (OF : forall x, others (s_thr s) t rest x -> fr (s_thr s) x) by (intros x; eapply others_top; eauto).
  set (x1 := reset x0).
  assert (GS : forall h, g_wait (set_grp s g x1 h) = g_wait (s_grp s h) /\ g_info (set_grp s g x1 h) = g_info (s_grp s h) /\
                         g_in (set_grp s g x1 h) = g_in (s_grp s h)).
  { intros h. destruct (Nat.eq_dec h g) as [->|N]; [rewrite set_grp_same; cbn; auto|rewrite set_grp_other; auto]. }
  dinv I. constructor; unf; auto.
  - intros h. rewrite TI; auto.
  - intros h. rewrite TI; auto.
  - intros h. rewrite TA, TD. destruct (GS h) as (-> & _). destruct (Nat.eq_dec h g) as [->|N].
    + rewrite set_grp_same. cbn [x1 reset g_unf]. rewrite AD, D0, W0. auto.
    + rewrite set_grp_other by auto. auto.
  - intros h. rewrite TD, TI by auto. destruct (GS h) as (-> & _). auto.
  - intros h. destruct (GS h) as (-> & _). auto.
  - intros h. destruct (GS h) as (-> & _ & ->). auto.
  - intros h j. destruct (GS h) as (-> & -> & _). rewrite TI by auto. intros Hj. destruct (Nat.eq_dec h g) as [->|N].
    + rewrite W0 in Hj. contradiction.
    + rewrite set_grp_other by auto. auto.
  - intros h. destruct (Nat.eq_dec h g) as [->|N]; [rewrite set_grp_same|rewrite set_grp_other; auto]. cbn. unfold max_tasks. lia.
  - intros x h d i F T. rewrite TI by auto. destruct (FR x F) as [->|F0]; [|eauto].
    apply (TASK (FAct a) h d i FA T).
  - intros b F. destruct (FR _ F) as [X|F0].
    + injection X as ->. unfold act_ok. cbn [a' set_pc a_pc a_handle]. exists g. split; auto. unf. rewrite TD.
      destruct (GS g) as (-> & _). auto.
    + apply (act_ok_mono s); auto. intros h Hh. cbn. rewrite TD. assert (h <> g) by (intros ->; exact (OTH b F0 Hh)).
      rewrite set_grp_other by auto. auto.
  - intros u gs G. destruct (stack_upd _ _ _ _ _ _ HN G) as [->|G']; [|eauto]. eapply core_stack; [|apply (STACK _ _ HN)]. auto.
  - intros x. rewrite TI; auto.
  - intros x. rewrite TI; auto.
  - intros d i. rewrite TP, COUNT. f_equal. f_equal. apply gsum_ext. intros h _. unfold waiting. destruct (GS h) as (-> & -> & _). auto.
  - intros d i. rewrite TI; auto.
  - intros x ln h c0 c1 c2 L. destruct (LN _ _ _ _ _ _ L) as (A & B). split; auto.
    intros b F E. destruct (FR _ F) as [X|F0]; [|eauto]. injection X as ->. cbn in *. apply (B a); auto.
Qed.

(** A task is taken from the waiting list and started. *)
Lemma inv_start s t f f' rest g w j act' inn ti tc : inv s -> nth_error (s_thr s) t = Some (f :: rest) ->
  g_wait (s_grp s g) = w ++ [j] -> core f' = core f -> dec_of f = None -> dec_of f' = Some g ->
  (forall h, w_add h f = 0) -> (forall h, w_add h f' = 0) -> (forall d i, w_pend d i f = 0) -> (forall d i, w_pend d i f' = 0) ->
  (forall b, f' = FAct b -> exists h, a_pc b = PDec h /\ a_handle b <> None) ->
  NoDup act' -> (forall h, In h act' <-> if Nat.eqb h g then w <> [] else g_wait (s_grp s h) <> []) -> (inn = true <-> w <> []) ->
  inv (start (with_active (with_grp s g (set_wait (s_grp s g) w inn)) act') t (f' :: rest) g j ti tc).
Proof.
  intros I HN EW C DF DF' AF AF' PF PF' OKF ND AC IN. set (x0 := s_grp s g). set (x1 := set_wait x0 w inn).
  unfold start. cbn [with_active with_grp s_grp s_act]. rewrite set_grp_same. cbn [x1 set_wait g_info].
  set (x := g_info x0 j). set (na := new_act (s_act s) (Some (g, i_data x, i_index x))).
  pose proof (core_w f f' C) as (EH & EO & EI & ER & ET). pose proof (top_fr _ _ _ _ HN) as FA.
  assert (TW : forall v, tot v (upd t (FAct na :: f' :: rest) (s_thr s)) = tot v (s_thr s) - v f + v f' + v (FAct na)).
  { intros v. rewrite (tot_upd _ _ _ _ _ HN). cbn [ws]. lia. }
  assert (TD : forall h, tot (w_dec h) (upd t (FAct na :: f' :: rest) (s_thr s)) = tot (w_dec h) (s_thr s) + b2z (Nat.eqb g h)).
  { intros h. rewrite TW. unfold w_dec. rewrite DF, DF'. cbn. lia. }
  assert (TA : forall h, tot (w_add h) (upd t (FAct na :: f' :: rest) (s_thr s)) = tot (w_add h) (s_thr s)).
  { intros h. rewrite TW, AF, AF'. cbn. lia. }
  assert (TP : forall d i, tot (w_pend d i) (upd t (FAct na :: f' :: rest) (s_thr s)) = tot (w_pend d i) (s_thr s)).
  { intros d i. rewrite TW, PF, PF'. cbn. lia. }
  assert (TH : forall h, tot (w_hold h) (upd t (FAct na :: f' :: rest) (s_thr s)) = tot (w_hold h) (s_thr s)).
  { intros h. rewrite TW, EH. cbn. lia. }
  assert (TO : forall h y, tot (w_own h y) (upd t (FAct na :: f' :: rest) (s_thr s)) = tot (w_own h y) (s_thr s)).
  { intros h y. rewrite TW, EO. cbn. lia. }
  assert (FR : forall y, fr (upd t (FAct na :: f' :: rest) (s_thr s)) y -> y = FAct na \/ y = f' \/ others (s_thr s) t rest y).
  { intros y F. apply (fr_upd _ t [f] rest [FAct na; f']) in F as [[<-|[<-|[]]]|F]; auto. }
  assert (OF : forall y, others (s_thr s) t rest y -> fr (s_thr s) y) by (intros y; eapply others_top; eauto).
  assert (Hj : In j (g_wait (s_grp s g))) by (rewrite EW; apply in_or_app; right; left; auto).
  assert (LEN : Z.of_nat (length (g_wait (s_grp s g))) = Z.of_nat (length w) + 1) by (rewrite EW, app_length; cbn; lia).
  assert (H1 : tot (w_hold g) (s_thr s) = 1).
  { apply (v_held _ I). pose proof (tot_nonneg (w_dec g) (s_thr s) (w_dec_nn g)). lia. }
  assert (GN : (g < s_new s)%nat).
  { destruct (le_lt_dec (s_new s) g) as [L|L]; auto. pose proof (v_new _ I g L).
    assert (0 <= slots g s) by apply cnt_nonneg. lia. }
  destruct (v_wait _ I g j Hj) as (J1 & J2 & J3). fold x0 in J1, J2, J3. fold x in J2, J3.
  assert (DL : (fst (i_data x) < s_act s)%nat).
  { destruct J2 as (J2 & _). destruct (i_data x) as [p q]. destruct (v_ln _ I _ _ _ _ _ _ J2). auto. }
  dinv I. constructor; unf; auto.
  - intros h. rewrite TH. auto.
  - intros h. rewrite TH. auto.
  - intros h. rewrite TA, TD. specialize (UNF h). destruct (Nat.eq_dec h g) as [->|N].
    + rewrite set_grp_same, Nat.eqb_refl. cbn [x1 set_wait g_unf g_wait b2z]. fold x0 in UNF, LEN. lia.
    + rewrite set_grp_other by auto. destruct (Nat.eqb_spec g h); [congruence|]. cbn. lia.
  - intros h. rewrite TD, TH. destruct (Nat.eq_dec h g) as [->|N]; auto. rewrite set_grp_other by auto.
    destruct (Nat.eqb_spec g h); [congruence|]. cbn. rewrite Z.add_0_r. auto.
  - intros h. rewrite AC. destruct (Nat.eqb_spec h g) as [->|N]; [rewrite set_grp_same; cbn; tauto|rewrite set_grp_other; tauto].
  - intros h. destruct (Nat.eq_dec h g) as [->|N]; [rewrite set_grp_same; cbn; auto|rewrite set_grp_other; auto].
  - intros h k. rewrite TO. intros Hk. destruct (Nat.eq_dec h g) as [->|N].
    + rewrite set_grp_same in *. cbn [x1 set_wait g_wait g_info g_next] in *.
      destruct (WAIT g k) as (A & B & D); [rewrite EW; apply in_or_app; auto|]. split; auto. split; auto.
      eapply launched_mono; [|exact B]. intros e He. right. auto.
    + rewrite set_grp_other in * by auto. destruct (WAIT h k Hk) as (A & B & D). split; auto. split; auto.
      eapply launched_mono; [|exact B]. intros e He. right. auto.
  - intros h. destruct (Nat.eq_dec h g) as [->|N]; [rewrite set_grp_same; cbn; apply NEXT|rewrite set_grp_other; auto].
  - intros y h d i F T. rewrite TO. destruct (FR y F) as [->|[->|F0]].
    + cbn in T. injection T as <- <- <-. split; auto.
    + rewrite ET in T. destruct (TASK f h d i FA T) as (A & B). split; auto.
      destruct f as [a|], f' as [a'|]; try discriminate; auto. cbn in C. injection C as C1 _ _ _. rewrite C1. auto.
    + eapply TASK; eauto.
  - intros b F. destruct (FR _ F) as [X|[X|F0]].
    + injection X as ->. exact Logic.I.
    + destruct (OKF b (eq_sym X)) as (h & P & Q). unfold act_ok. rewrite P. auto.
    + apply (act_ok_mono s); auto.
      * intros e He. right. auto.
      * intros h Hh. cbn. rewrite TD. destruct (Nat.eq_dec h g) as [->|N].
        -- rewrite set_grp_same. cbn [x1 set_wait g_wait g_info g_next]. split; auto. split; auto. rewrite EW. intros X.
           apply app_eq_nil in X as [_ X]. discriminate.
        -- rewrite set_grp_other by auto. destruct (Nat.eqb_spec g h); [congruence|]. cbn. rewrite Z.add_0_r. auto.
  - intros u gs G. destruct (stack_upd _ _ _ _ _ _ HN G) as [->|G']; [|eauto].
    pose proof (core_stack f f' rest C (STACK _ _ HN)) as SK. cbn [stack_ok] in SK |- *. split; [exact SK|].
    exists na, g, (i_data x), (i_index x). split; auto. split; auto. split; auto. destruct f' as [b|]; auto. cbn.
    destruct (le_lt_dec (s_act s) (a_id b)) as [L|L]; auto. pose proof (IDNEW _ L) as X.
    pose proof (tot_fr (w_id (a_id b)) _ _ (w_id_nn _) FA) as Y. rewrite <- EI in Y. cbn in Y. rewrite Nat.eqb_refl in Y. cbn in Y. lia.
  - intros y. rewrite TW, EI. cbn. destruct (Nat.eqb_spec (s_act s) y) as [<-|N]; cbn.
    + rewrite (IDNEW (s_act s)); lia.
    + specialize (ID y). lia.
  - intros y Y. rewrite TW, EI. cbn. destruct (Nat.eqb_spec (s_act s) y) as [<-|N]; cbn; [lia|]. rewrite IDNEW; lia.
  - intros d i. rewrite TP. cbn [cnt is_launch is_start]. rewrite COUNT.
    rewrite (gsum_upd (fun h => waiting d i (s_grp s h)) (fun h => waiting d i (set_grp s g x1 h)) (s_new s) g GN)
      by (intros h N; rewrite set_grp_other; auto).
    cbv beta. rewrite set_grp_same.
    assert (W1 : waiting d i (s_grp s g) = waiting d i x1 + (if is_task d i x then 1 else 0)).
    { unfold waiting. rewrite EW, cnt_app. cbn [cnt x1 set_wait g_wait g_info]. unfold x, x0. lia. }
    rewrite W1. lia.
  - intros d i. cbn [cnt is_start is_end]. rewrite TW, ER, RUNNING. cbn [w_run na new_act a_task]. unfold is_task, b2z.
    destruct (data_eqb (i_data x) d && (i_index x =? i)); lia.
  - intros p ln h c0 c1 c2 [X|L]; [discriminate|]. destruct (LN _ _ _ _ _ _ L) as (A & B). split; [lia|].
    intros b F E. destruct (FR _ F) as [X|[X|F0]]; [| |eauto].
    + injection X as ->. cbn in E. lia.
    + subst f'. destruct f as [a|]; [|discriminate]. cbn in C. injection C as C1 _ _ C4. rewrite C4. apply B; auto. congruence.
Qed.

(** The counter is decremented after a task. *)
Lemma inv_dec s t f f' rest g : inv s -> nth_error (s_thr s) t = Some (f :: rest) ->
  core f' = core f -> dec_of f = Some g -> dec_of f' = None ->
  (forall h, w_add h f = 0) -> (forall h, w_add h f' = 0) -> (forall d i, w_pend d i f = 0) -> (forall d i, w_pend d i f' = 0) ->
  (forall b, f' = FAct b -> a_pc b = PSync /\ a_handle b <> None) ->
  inv (put (with_grp s g (set_unf (s_grp s g) (g_unf (s_grp s g) - 1))) t (f' :: rest)).
Proof.
  intros I HN C DF DF' AF AF' PF PF' OKF. set (x0 := s_grp s g). set (x1 := set_unf x0 (g_unf x0 - 1)).
  pose proof (core_w f f' C) as (EH & EO & EI & ER & ET). pose proof (top_fr _ _ _ _ HN) as FA.
  assert (TW : forall v, tot v (upd t (f' :: rest) (s_thr s)) = tot v (s_thr s) - v f + v f').
  { intros v. rewrite (tot_upd _ _ _ _ _ HN). cbn [ws]. lia. }
  assert (TI : forall v, v f' = v f -> tot v (upd t (f' :: rest) (s_thr s)) = tot v (s_thr s)).
  { intros v E. rewrite TW. lia. }
  assert (TD : forall h, tot (w_dec h) (upd t (f' :: rest) (s_thr s)) = tot (w_dec h) (s_thr s) - b2z (Nat.eqb g h)).
  { intros h. rewrite TW. unfold w_dec. rewrite DF, DF'. cbn. lia. }
  assert (TA : forall h, tot (w_add h) (upd t (f' :: rest) (s_thr s)) = tot (w_add h) (s_thr s)).
  { intros h. rewrite TW, AF, AF'. lia. }
  assert (TP : forall d i, tot (w_pend d i) (upd t (f' :: rest) (s_thr s)) = tot (w_pend d i) (s_thr s)).
  { intros d i. rewrite TW, PF, PF'. lia. }
  assert (FR : forall y, fr (upd t (f' :: rest) (s_thr s)) y -> y = f' \/ others (s_thr s) t rest y).
  { intros y F. apply (fr_top _ _ _ _ _ _ HN F). }
  assert (OF : forall y, others (s_thr s) t rest y -> fr (s_thr s) y) by (intros y; eapply others_top; eauto).
  assert (DP : 1 <= tot (w_dec g) (s_thr s)).
  { pose proof (tot_fr (w_dec g) _ _ (w_dec_nn g) FA) as X. unfold w_dec in X at 1. rewrite DF in X. cbn in X.
    rewrite Nat.eqb_refl in X. cbn in X. lia. }
  assert (GS : forall h, g_wait (set_grp s g x1 h) = g_wait (s_grp s h) /\ g_info (set_grp s g x1 h) = g_info (s_grp s h) /\
                         g_next (set_grp s g x1 h) = g_next (s_grp s h) /\ g_in (set_grp s g x1 h) = g_in (s_grp s h)).
  { intros h. destruct (Nat.eq_dec h g) as [->|N]; [rewrite set_grp_same; cbn; auto|rewrite set_grp_other; auto]. }
  dinv I. constructor; unf; auto.
  - intros h. rewrite TI; auto.
  - intros h. rewrite TI; auto.
  - intros h. rewrite TA, TD. specialize (UNF h). destruct (GS h) as (-> & _). destruct (Nat.eq_dec h g) as [->|N].
    + rewrite set_grp_same, Nat.eqb_refl. cbn [x1 set_unf g_unf b2z]. fold x0 in UNF. fold x0. lia.
    + rewrite set_grp_other by auto. destruct (Nat.eqb_spec g h); [congruence|]. cbn [b2z]. lia.
  - intros h. rewrite TD, TI by auto. destruct (GS h) as (-> & _). intros X. apply HELD. pose proof (b2z_range (Nat.eqb g h)). lia.
  - intros h. destruct (GS h) as (-> & _). auto.
  - intros h. destruct (GS h) as (-> & _ & _ & ->). auto.
  - intros h j. destruct (GS h) as (-> & -> & -> & _). rewrite TI by auto. auto.
  - intros h. destruct (GS h) as (_ & _ & -> & _). auto.
  - intros y h d i F T. rewrite TI by auto. destruct (FR y F) as [->|F0]; [|eauto].
    rewrite ET in T. destruct (TASK f h d i FA T) as (A & B). split; auto.
    destruct f as [a|], f' as [a'|]; try discriminate; auto. cbn in C. injection C as C1 _ _ _. rewrite C1. auto.
  - intros b F. destruct (FR _ F) as [X|F0].
    + destruct (OKF b (eq_sym X)) as (P & Q). unfold act_ok. rewrite P. auto.
    + apply (act_ok_mono s); auto. intros h Hh. cbn. rewrite TD. destruct (GS h) as (-> & -> & -> & _). split; auto. split; auto.
      intros X Y. split; auto. destruct (Nat.eqb_spec g h) as [->|N]; cbn; lia.
  - intros u gs G. destruct (stack_upd _ _ _ _ _ _ HN G) as [->|G']; [|eauto]. eapply core_stack; [|apply (STACK _ _ HN)]. auto.
  - intros x. rewrite TI; auto.
  - intros x. rewrite TI; auto.
  - intros d i. rewrite TP, COUNT. f_equal. f_equal. apply gsum_ext. intros h _. unfold waiting. destruct (GS h) as (-> & -> & _). auto.
  - intros d i. rewrite TI; auto.
  - intros p ln h c0 c1 c2 L. destruct (LN _ _ _ _ _ _ L) as (A & B). split; auto.
    intros b F E. destruct (FR _ F) as [X|F0]; [|eauto]. subst f'. destruct f as [a|]; [|discriminate].
    cbn in C. injection C as C1 _ _ C4. rewrite C4. apply B; auto. congruence.
Qed.

Lemma stack_tail f rest : stack_ok (f :: rest) -> stack_ok rest.
Proof. cbn. tauto. Qed.

(** A function returns. *)
Lemma inv_return s t a rest : inv s -> nth_error (s_thr s) t = Some (FAct a :: rest) ->
  a_handle a = None -> a_pc a = PRun ->
  inv (match a_task a with
       | None => put s t rest
       | Some (_, d, i) => with_log (put s t rest) (EvEnd d i)
       end).
Proof.
  intros I HN HA PC.
  assert (TW : forall w, tot w (upd t rest (s_thr s)) = tot w (s_thr s) - w (FAct a)).
  { intros w. rewrite (tot_upd _ _ _ _ _ HN). cbn [ws]. lia. }
  assert (Q : quiet (a_pc a)) by (rewrite PC; exact Logic.I).
  assert (TH : forall h, tot (w_hold h) (upd t rest (s_thr s)) = tot (w_hold h) (s_thr s)).
  { intros h. rewrite TW. cbn. rewrite HA. cbn. lia. }
  assert (TO : forall h x, tot (w_own h x) (upd t rest (s_thr s)) = tot (w_own h x) (s_thr s)).
  { intros h x. rewrite TW. cbn. rewrite HA. cbn. lia. }
  assert (TD : forall h, tot (w_dec h) (upd t rest (s_thr s)) = tot (w_dec h) (s_thr s)).
  { intros h. rewrite TW, quiet_dec; auto. lia. }
  assert (TA : forall h, tot (w_add h) (upd t rest (s_thr s)) = tot (w_add h) (s_thr s)).
  { intros h. rewrite TW, quiet_add; auto. lia. }
  assert (TP : forall d i, tot (w_pend d i) (upd t rest (s_thr s)) = tot (w_pend d i) (s_thr s)).
  { intros d i. rewrite TW, quiet_pend; auto. lia. }
  assert (FR : forall x, fr (upd t rest (s_thr s)) x -> fr (s_thr s) x).
  { intros x F. apply (fr_upd _ t [FAct a] rest []) in F as [[]|F]; auto. eapply others_top; eauto. }
  assert (IDs : forall x, tot (w_id x) (upd t rest (s_thr s)) <= tot (w_id x) (s_thr s)).
  { intros x. rewrite TW. pose proof (w_id_nn x (FAct a)). lia. }
  assert (R : forall log, (forall e, In e (s_log s) -> In e log) ->
     (forall a ln f c0 c1 c2, In (EvLaunch (a, ln) f c0 c1 c2) log -> In (EvLaunch (a, ln) f c0 c1 c2) (s_log s)) ->
     (forall d i, cnt (is_launch d i) log = cnt (is_launch d i) (s_log s)) ->
     (forall d i, cnt (is_start d i) log = cnt (is_start d i) (s_log s)) ->
     (forall d i, cnt (is_end d i) log = cnt (is_end d i) (s_log s) + w_run d i (FAct a)) ->
     inv {| s_thr := upd t rest (s_thr s); s_grp := s_grp s; s_active := s_active s; s_sem := s_sem s; s_free := s_free s;
            s_new := s_new s; s_act := s_act s; s_workers := s_workers s; s_log := log; s_bad := s_bad s |}).
  { intros log L1 L2 L3 L4 L5. dinv I. constructor; unf; auto.
    - intros h. rewrite TH. auto.
    - intros h. rewrite TH. auto.
    - intros h. rewrite TA, TD. auto.
    - intros h. rewrite TD, TH. auto.
    - intros h j Hj. rewrite TO. destruct (WAIT h j Hj) as (A & B & D). split; auto. split; auto. eapply launched_mono; eauto.
    - intros x h d i F T. rewrite TO. eauto.
    - intros b F. apply (act_ok_mono s); auto. intros h Hh. cbn. rewrite TD. auto.
    - intros u gs G. destruct (stack_upd _ _ _ _ _ _ HN G) as [->|G']; [|eauto]. eapply stack_tail, STACK; eauto.
    - intros x. specialize (IDs x). specialize (ID x). lia.
    - intros x X. specialize (IDs x). rewrite (IDNEW x X) in IDs. pose proof (tot_nonneg (w_id x) (upd t rest (s_thr s)) (w_id_nn x)). lia.
    - intros d i. rewrite TP, L3, L4. auto.
    - intros d i. rewrite TW, L4, L5, RUNNING. lia.
    - intros p ln h c0 c1 c2 L. destruct (LN _ _ _ _ _ _ (L2 _ _ _ _ _ _ L)) as (A & B). split; auto.
    - intros d i. rewrite L3. auto. }
  destruct (a_task a) as [[[h d] i]|] eqn:TT.
  - apply R; cbn [cnt is_launch is_start is_end]; auto.
    + intros e He. right. auto.
    + intros p ln f c0 c1 c2 [X|X]; [discriminate|auto].
    + intros d' i'. cbn. rewrite TT. unfold b2z. destruct (data_eqb d d' && (i =? i')); lia.
  - apply R; auto. intros d' i'. cbn. rewrite TT. lia.
Qed.

(** Tasks run in frames above the one that has taken them. *)
Lemma tasks_dec s g : inv s -> tot (w_task g) (s_thr s) <= tot (w_dec g) (s_thr s).
Proof.
  intros I. apply tot_le. intros fs HI. apply In_nth_error in HI as (t & E). pose proof (v_stack _ I _ _ E) as SK. clear - SK.
  assert (X : forall fs, stack_ok fs -> ws (w_task g) fs <= match fs with [] => 0 | f :: r => w_dec g f + ws (w_dec g) r end - match fs with [] => 0 | f :: _ => w_dec g f end).
  { clear. induction fs as [|f r IH]; intros H; cbn [ws]; [lia|]. cbn [stack_ok] in H. destruct H as (H1 & H2). specialize (IH H1).
    destruct r as [|f' r]; cbn [ws] in *.
    - destruct f as [a|]; cbn in *; [rewrite H2; lia|lia].
    - destruct H2 as (a & h & d & i & -> & T & D & _). cbn [w_task]. rewrite T. unfold w_dec in *. rewrite D in *. cbn in *. lia. }
  specialize (X fs SK). destruct fs as [|f r]; cbn [ws] in *; [lia|]. pose proof (w_dec_nn g f). lia.
Qed.

(** A group is given back, or deleted. *)
Lemma inv_put s s1 t a rest g : inv s -> nth_error (s_thr s) t = Some (FAct a :: rest) ->
  a_handle a = Some g -> quiet (a_pc a) -> g_wait (s_grp s g) = [] -> tot (w_dec g) (s_thr s) = 0 ->
  s_thr s1 = s_thr s -> s_active s1 = s_active s -> s_act s1 = s_act s -> s_log s1 = s_log s -> s_grp s1 = s_grp s ->
  s_new s1 = s_new s -> length (s_free s1) = max_free -> slots g s1 <= 1 -> (forall h, h <> g -> slots h s1 <= slots h s) ->
  inv (put s1 t (FAct (set_handle a None PRun) :: rest)).
Proof.
  intros I HN HA Q W0 D0 T1 T2 T3 T4 T5 T6 T7 S1 SO. set (a' := set_handle a None PRun).
  destruct (holder s t a rest g I HN HA) as (H1 & S0 & GN & OTH & AD).
  assert (HN1 : nth_error (s_thr s1) t = Some (FAct a :: rest)) by (rewrite T1; auto).
  assert (TW : forall w, tot w (upd t (FAct a' :: rest) (s_thr s1)) = tot w (s_thr s) - w (FAct a) + w (FAct a')).
  { intros w. rewrite T1, (tot_upd _ _ _ _ _ HN). cbn [ws]. lia. }
  assert (TI : forall w, w (FAct a') = w (FAct a) -> tot w (upd t (FAct a' :: rest) (s_thr s1)) = tot w (s_thr s)).
  { intros w E. rewrite TW. lia. }
  assert (TH : forall h, tot (w_hold h) (upd t (FAct a' :: rest) (s_thr s1)) = tot (w_hold h) (s_thr s) - b2z (Nat.eqb g h)).
  { intros h. rewrite TW. cbn. rewrite HA. cbn. lia. }
  assert (TO : forall h x, h <> g -> tot (w_own h x) (upd t (FAct a' :: rest) (s_thr s1)) = tot (w_own h x) (s_thr s)).
  { intros h x N. rewrite TW. cbn. rewrite HA. cbn. destruct (Nat.eqb_spec g h); [congruence|]. cbn. lia. }
  assert (TD : forall h, tot (w_dec h) (upd t (FAct a' :: rest) (s_thr s1)) = tot (w_dec h) (s_thr s)).
  { intros h. apply TI. rewrite !quiet_dec; cbn; auto. }
  assert (TA : forall h, tot (w_add h) (upd t (FAct a' :: rest) (s_thr s1)) = tot (w_add h) (s_thr s)).
  { intros h. apply TI. rewrite !quiet_add; cbn; auto. }
  assert (TP : forall d i, tot (w_pend d i) (upd t (FAct a' :: rest) (s_thr s1)) = tot (w_pend d i) (s_thr s)).
  { intros d i. apply TI. rewrite !quiet_pend; cbn; auto. }
  assert (FR : forall x, fr (upd t (FAct a' :: rest) (s_thr s1)) x -> x = FAct a' \/ others (s_thr s) t rest x).
  { intros x F. rewrite T1 in F. apply (fr_top _ _ _ _ _ _ HN F). }
  assert (OF : forall x, others (s_thr s) t rest x -> fr (s_thr s) x) by (intros x; eapply others_top; eauto).
  pose proof (top_fr _ _ _ _ HN) as FA.
  assert (NT : forall f d i, fr (s_thr s) f -> task_of f <> Some (g, d, i)).
  { intros f d i F T. pose proof (tot_fr (w_task g) _ _ (w_task_nn g) F) as X. pose proof (tasks_dec s g I).
    destruct f as [b|]; [|discriminate]. cbn in T, X. rewrite T, Nat.eqb_refl in X. cbn in X. lia. }
  dinv I. constructor; unf; rewrite ?T2, ?T3, ?T4, ?T5, ?T6; auto.
  - intros h. rewrite TH. destruct (Nat.eqb_spec g h) as [<-|N]; cbn; [lia|]. specialize (ONE h). specialize (SO h ltac:(auto)). lia.
  - intros h H. rewrite TH. destruct (Nat.eqb_spec g h) as [<-|N]; cbn; [lia|]. specialize (NEW h ltac:(lia)).
    specialize (SO h ltac:(auto)). lia.
  - intros h. rewrite TA, TD. auto.
  - intros h. rewrite TD, TH. intros X. destruct (Nat.eqb_spec g h) as [<-|N]; cbn.
    + rewrite W0, D0 in X. cbn in X. lia.
    + rewrite HELD by auto. lia.
  - intros h j Hj. assert (h <> g) by (intros ->; rewrite W0 in Hj; contradiction). rewrite TO by auto. auto.
  - intros x h d i F T. assert (N : h <> g).
    { intros ->. destruct (FR x F) as [->|F0]; [exact (NT (FAct a) d i FA T)|exact (NT x d i (OF x F0) T)]. }
    rewrite TO by auto. destruct (FR x F) as [->|F0]; [apply (TASK (FAct a) h d i FA T)|eauto].
  - intros b F. destruct (FR _ F) as [X|F0].
    + injection X as ->. exact Logic.I.
    + apply (act_ok_mono s); auto.
      * intros e He. cbn. rewrite T4. auto.
      * intros h Hh. cbn. rewrite TD, T5. auto.
  - intros u gs G. destruct (stack_upd _ _ _ _ _ _ HN1 G) as [->|G'].
    + specialize (STACK _ _ HN). cbn [stack_ok task_of a' set_handle a_task a_id] in *. destruct rest as [|f' r]; auto.
      destruct STACK as (S2 & b & h & d & i & X & Y & Z & O). split; auto. injection X as <-. exists a', h, d, i. auto.
    + rewrite T1 in G'. eauto.
  - intros x. rewrite TI; auto.
  - intros x. rewrite TI; auto.
  - intros d i. rewrite TP. auto.
  - intros d i. rewrite TI; auto.
  - intros x ln h c0 c1 c2 L. destruct (LN _ _ _ _ _ _ L) as (A & B). split; auto.
    intros b F E. destruct (FR _ F) as [X|F0]; [|eauto]. injection X as ->. cbn in *. apply (B a); auto.
Qed.
