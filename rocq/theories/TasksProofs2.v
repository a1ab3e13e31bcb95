(** Steps of the task system preserve the invariant. *)
From Coq Require Import ZArith List Bool Arith Lia.
From Verif Require Import TasksModel TasksProofs.
Import ListNotations.
Open Scope Z_scope.

Lemma stack_upd (thr : list (list frame)) t u fs' gs fs : nth_error thr t = Some fs -> nth_error (upd t fs' thr) u = Some gs ->
  gs = fs' \/ nth_error thr u = Some gs.
Proof.
  intros E H. destruct (Nat.eq_dec u t) as [->|N].
  - rewrite (nth_error_upd_same _ _ _ _ E) in H. injection H as <-. auto.
  - rewrite (nth_error_upd_other _ _ _ _ N) in H. auto.
Qed.

Lemma act_ok_mono s s' a : act_ok s a -> (forall e, In e (s_log s) -> In e (s_log s')) ->
  (forall g, a_handle a = Some g ->
     g_next (s_grp s' g) = g_next (s_grp s g) /\ g_info (s_grp s' g) = g_info (s_grp s g) /\
     (g_wait (s_grp s g) = [] -> tot (w_dec g) (s_thr s) = 0 ->
      g_wait (s_grp s' g) = [] /\ tot (w_dec g) (s_thr s') = 0)) -> act_ok s' a.
Proof.
  unfold act_ok. intros H HL HG. destruct (a_pc a); auto.
  - destruct H as (LO & D & g & E & B1 & B2 & B3). destruct (HG g E) as (N & F & _).
    split; auto. split; auto. exists g. rewrite N, F. split; auto. split; auto. split; auto. intros j Hj. destruct (B3 j Hj) as (X & Y). split; auto.
    destruct Y. split; auto.
  - destruct H as (g & E & W & D). destruct (HG g E) as (_ & _ & X). exists g. split; auto.
  - destruct H as (g & E & W & D). destruct (HG g E) as (_ & _ & X). exists g. split; auto.
Qed.

Lemma launched_mono log log' x : (forall e, In e log -> In e log') -> launched log x -> launched log' x.
Proof. intros H [A B]. split; auto. Qed.

Lemma nat_eqb_opt_some o g : nat_eqb_opt o g = true <-> o = Some g.
Proof.
  destruct o as [h|]; cbn; [|split; discriminate]. rewrite Nat.eqb_eq. split; congruence.
Qed.

Lemma w_own_hold g x f : w_own g x f <= w_hold g f.
Proof. destruct f as [a|]; cbn; [destruct (nat_eqb_opt (a_handle a) g), (Nat.eqb (a_id a) x); cbn; lia|lia]. Qed.

Lemma w_add_hold g f : w_hold g f = 0 -> w_add g f = 0.
Proof. destruct f as [a|]; cbn; auto. destruct (nat_eqb_opt (a_handle a) g); cbn; [lia|]. destruct (a_pc a); auto. Qed.

Lemma hold_some a g : a_handle a = Some g -> w_hold g (FAct a) = 1.
Proof. intros E. cbn. rewrite E. cbn. rewrite Nat.eqb_refl. auto. Qed.

(** The holder of a group is the only one. *)
Lemma holder s t a rest g : inv s -> nth_error (s_thr s) t = Some (FAct a :: rest) -> a_handle a = Some g ->
  tot (w_hold g) (s_thr s) = 1 /\ slots g s = 0 /\ (g < s_new s)%nat /\
  (forall b, others (s_thr s) t rest (FAct b) -> a_handle b <> Some g) /\
  tot (w_add g) (s_thr s) = w_add g (FAct a).
Proof.
  intros I HN HH. pose proof (hold_some a g HH) as E1.
  pose proof (tot_stack (w_hold g) _ _ _ (w_hold_nn g) HN) as T. cbn [ws] in T. pose proof (ws_nonneg (w_hold g) rest (w_hold_nn g)).
  pose proof (v_one _ I g). assert (0 <= slots g s) by apply cnt_nonneg.
  assert (TH : tot (w_hold g) (s_thr s) = 1) by lia. repeat split; auto; try lia.
  - destruct (le_lt_dec (s_new s) g) as [L|L]; auto. pose proof (v_new _ I g L). lia.
  - intros b O HB. pose proof (others_le (w_hold g) _ t [FAct a] rest _ (w_hold_nn g) HN O) as Q. cbn [ws] in Q.
    rewrite E1, (hold_some b g HB) in Q. lia.
  - eapply (tot_single (w_hold g)); eauto using w_hold_nn, w_add_hold; lia.
Qed.

Ltac dinv I := destruct I as [ONE NEW UNF HELD NODUP ACTIVE INACT WAIT NEXT TASK ACT STACK ID IDNEW COUNT RUNNING LN ONCE FREE].
Ltac unf := unfold slots in *;
  cbn [put with_sem with_grp with_active with_free with_new with_act with_log s_thr s_grp s_active s_free s_new s_act s_log s_workers] in *.

Definition quiet (p : pc) : Prop := match p with PDec _ | PAdd _ | PPush _ _ _ => False | _ => True end.

Lemma quiet_dec g a : quiet (a_pc a) -> w_dec g (FAct a) = 0.
Proof. unfold w_dec. cbn. destruct (a_pc a); cbn; auto; contradiction. Qed.
Lemma quiet_add g a : quiet (a_pc a) -> w_add g (FAct a) = 0.
Proof. unfold w_add. destruct (a_pc a); cbn; auto; contradiction. Qed.
Lemma quiet_pend d i a : quiet (a_pc a) -> w_pend d i (FAct a) = 0.
Proof. unfold w_pend. destruct (a_pc a); cbn; auto; contradiction. Qed.

(** What a frame does not change about itself in most steps. *)
Definition core (f : frame) : option (nat * option (nat * data * Z) * option nat * nat) :=
  match f with FAct a => Some (a_id a, a_task a, a_handle a, a_ln a) | _ => None end.

Lemma core_w f f' : core f' = core f ->
  (forall g, w_hold g f' = w_hold g f) /\ (forall g x, w_own g x f' = w_own g x f) /\ (forall x, w_id x f' = w_id x f) /\
  (forall d i, w_run d i f' = w_run d i f) /\ task_of f' = task_of f.
Proof.
  destruct f as [a|], f' as [b|]; cbn; intros E; try discriminate; [|repeat split; auto].
  injection E as E1 E2 E3 E4. rewrite E1, E2, E3. repeat split; auto.
Qed.

Lemma core_stack f f' rest : core f' = core f -> stack_ok (f :: rest) -> stack_ok (f' :: rest).
Proof.
  intros C H. pose proof (core_w f f' C) as (_ & _ & _ & _ & T). cbn [stack_ok] in *. destruct rest as [|g r]; [rewrite T; auto|].
  destruct H as (S1 & a & h & d & i & X & Y & Z & O). split; auto. subst f. destruct f' as [b|]; [|discriminate].
  cbn in C. injection C as C1 C2 C3 C4. exists b, h, d, i. rewrite C1, C2. auto.
Qed.

(** The innermost frame of a thread changes. *)
Lemma fr_top thr t f f' rest x : nth_error thr t = Some (f :: rest) -> fr (upd t (f' :: rest) thr) x -> x = f' \/ others thr t rest x.
Proof. intros HN F. apply (fr_upd _ t [f] rest [f']) in F as [[<-|[]]|F]; auto. Qed.
Lemma others_top thr t f rest x : nth_error thr t = Some (f :: rest) -> others thr t rest x -> fr thr x.
Proof. intros HN O. exact (others_fr _ t [f] rest x HN O). Qed.
Lemma top_fr thr t f rest : nth_error thr t = Some (f :: rest) -> fr thr f.
Proof. intros HN. exists t, (f :: rest). split; [auto|left; auto]. Qed.

Lemma inv_frame s t f f' rest n : inv s -> nth_error (s_thr s) t = Some (f :: rest) ->
  core f' = core f -> (forall g, w_dec g f' = w_dec g f) -> (forall g, w_add g f' = w_add g f) ->
  (forall d i, w_pend d i f' = w_pend d i f) -> (forall b, f' = FAct b -> act_ok s b) ->
  inv (put (with_sem s n) t (f' :: rest)).
Proof.
  intros I HN C ED EA EP OK. pose proof (core_w f f' C) as (EH & EO & EI & ER & ET).
  assert (TW : forall w, w f' = w f -> tot w (upd t (f' :: rest) (s_thr s)) = tot w (s_thr s)).
  { intros w E. rewrite (tot_upd _ _ _ _ _ HN). cbn [ws]. rewrite E. lia. }
  assert (FR : forall x, fr (upd t (f' :: rest) (s_thr s)) x -> x = f' \/ fr (s_thr s) x).
  { intros x F. destruct (fr_top _ _ _ _ _ _ HN F) as [->|O]; auto. right. eapply others_top; eauto. }
  pose proof (top_fr _ _ _ _ HN) as FA.
  assert (MONO : forall b, act_ok s b -> act_ok (put (with_sem s n) t (f' :: rest)) b).
  { intros b Hb. apply (act_ok_mono s); auto. intros g _. cbn. rewrite TW; auto. }
  dinv I. constructor; unf; auto.
  - intros g. rewrite TW; auto.
  - intros g. rewrite TW; auto.
  - intros g. rewrite !TW; auto.
  - intros g. rewrite !TW; auto.
  - intros g j Hj. rewrite TW; auto.
  - intros x g d i F T. rewrite TW by auto. destruct (FR x F) as [->|F0].
    + rewrite ET in T. destruct (TASK f g d i FA T) as (A & B). split; auto.
      destruct f as [a|], f' as [a'|]; try discriminate; auto. cbn in C. injection C as C1 _ _ _. rewrite C1. auto.
    + eapply TASK; eauto.
  - intros b F. destruct (FR _ F) as [X|F0]; auto.
  - intros u gs G. destruct (stack_upd _ _ _ _ _ _ HN G) as [->|G']; [|eauto]. eapply core_stack; eauto.
  - intros x. rewrite TW; auto.
  - intros x. rewrite TW; auto.
  - intros d i. rewrite TW; auto.
  - intros d i. rewrite TW; auto.
  - intros x ln h c0 c1 c2 L. destruct (LN _ _ _ _ _ _ L) as (A & B). split; auto.
    intros b F E. destruct (FR _ F) as [X|F0]; [subst f'|auto]. destruct f as [a|]; [|discriminate].
    cbn in C. injection C as C1 _ _ C4. rewrite C4. apply B; auto. congruence.
Qed.

(** An activation moves on without touching anything shared but the semaphore. *)
Lemma inv_move s t a a' rest n : inv s -> nth_error (s_thr s) t = Some (FAct a :: rest) ->
  a_id a' = a_id a -> a_task a' = a_task a -> a_handle a' = a_handle a -> a_ln a' = a_ln a ->
  quiet (a_pc a) -> quiet (a_pc a') -> act_ok s a' -> inv (put (with_sem s n) t (FAct a' :: rest)).
Proof.
  intros I HN E1 E2 E3 E4 Q Q' OK. eapply inv_frame; eauto.
  - cbn. congruence.
  - intros g. rewrite !quiet_dec; auto.
  - intros g. rewrite !quiet_add; auto.
  - intros d i. rewrite !quiet_pend; auto.
  - intros b X. injection X as <-. auto.
Qed.

Lemma inv_sem s n : inv s -> inv (with_sem s n).
Proof.
  intros I. dinv I. constructor; unf; auto.
Qed.

(** A host thread calls a function. *)
Lemma inv_call s t : inv s -> nth_error (s_thr s) t = Some [] ->
  inv (with_act (put s t [FAct (new_act (s_act s) None)])).
Proof.
  intros I HN.
  assert (TW : forall w, tot w (upd t [FAct (new_act (s_act s) None)] (s_thr s)) = tot w (s_thr s) + w (FAct (new_act (s_act s) None))).
  { intros w. rewrite (tot_upd _ _ _ _ _ HN). cbn [ws]. lia. }
  assert (FR : forall x, fr (upd t [FAct (new_act (s_act s) None)] (s_thr s)) x -> x = FAct (new_act (s_act s) None) \/ fr (s_thr s) x).
  { intros x F. apply (fr_upd _ t [] [] [FAct (new_act (s_act s) None)]) in F as [[<-|[]]|F]; auto. right.
    exact (others_fr _ t [] [] x HN F). }
  dinv I. constructor; unf; auto.
  - intros g. rewrite TW. cbn. specialize (ONE g). lia.
  - intros g. rewrite TW. cbn. intros G. specialize (NEW g G). lia.
  - intros g. rewrite !TW. cbn. specialize (UNF g). lia.
  - intros g. rewrite !TW. cbn. intros G. rewrite Z.add_0_r. apply HELD. lia.
  - intros g j Hj. rewrite TW. cbn. rewrite Z.add_0_r. auto.
  - intros x g d i F T. rewrite TW. cbn. rewrite Z.add_0_r. destruct (FR x F) as [->|F0]; [discriminate|eauto].
  - intros b F. destruct (FR _ F) as [X|F0].
    + injection X as ->. exact Logic.I.
    + apply (act_ok_mono s); auto. intros g _. cbn. rewrite TW. cbn. rewrite Z.add_0_r. auto.
  - intros u gs G. destruct (stack_upd _ _ _ _ _ _ HN G) as [->|G']; [|eauto]. cbn. auto.
  - intros x. rewrite TW. cbn. destruct (Nat.eqb_spec (s_act s) x) as [<-|N]; cbn.
    + rewrite (IDNEW (s_act s)); lia.
    + specialize (ID x). lia.
  - intros x X. rewrite TW. cbn. destruct (Nat.eqb_spec (s_act s) x) as [<-|N]; cbn; [lia|]. rewrite IDNEW; lia.
  - intros d i. rewrite TW. cbn. rewrite Z.add_0_r. auto.
  - intros d i. rewrite TW. cbn. rewrite Z.add_0_r. auto.
  - intros x ln h c0 c1 c2 L. destruct (LN _ _ _ _ _ _ L) as (A & B). split; [lia|].
    intros b F E. destruct (FR _ F) as [X|F0]; [|auto]. injection X as ->. cbn in E. lia.
Qed.
