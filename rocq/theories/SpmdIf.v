(** Simulation for the varying `if`. *)
From Coq Require Import ZArith List Bool Arith Lia.
From Verif Require Import Bits SpmdModel SpmdSpec SpmdRel SpmdProofs.
Import ListNotations.

(** What the induction hypothesis says about statements run with fuel [n]. *)
Definition Pexec (o : opts) (n : nat) : Prop :=
  forall dv du K d F D D' c s st out st',
    vexec n o c s st = Some (out, st') -> chk dv du K d F D s = Some D' ->
    ctxrel dv K d c -> kcond dv du d F K -> kscope K D -> scope_ok dv du d D -> inv (o_width o) K d c st ->
    post (o_width o) dv du K d F D D' c st out st' (fun l s0 => lexec n (o_funs o) l s s0).

(** One side of a varying `if`: run with mask [m], or skipped if no lane wants it. *)
Definition phase (w : nat) dv du K d F D (c : cx) (m : mask) (st : vst) (out : vout) (st1 : vst)
    (R : lane -> lst -> option (lout * lst)) : Prop :=
  uframe du (S d) F st st1 /\
  (forall l, l < w -> c_fm c l = false -> gframe l st st1) /\
  (forall l, l < w -> c_fm c l = true -> m l = false ->
     match out with
     | VNorm => frame0 dv (S d) F l st st1
     | _ => framex out dv (S d) F l st st1
     end) /\
  (forall l, l < w -> c_fm c l = true -> m l = true -> forall s, agree l D st s ->
     exists ol s', R l s = Some (ol, s') /\ outrel K out ol l D st1 s') /\
  (out = VNorm -> forall l, l < w -> c_fm c l = true -> bits_ok K st1 l) /\
  (out = VBrk \/ out = VCont -> jumped w K c st1) /\
  (out = VBrk -> forall k, K = Some k -> k_hasc k = false) /\
  (out = VCont -> forall k, K = Some k -> k_loop k = true) /\
  (out = VRet -> forall l, l < w -> c_fm c l = true -> m l = true \/ v_ret st l = true).

Lemma phase_run o n dv du K d F D D' c (r : bool) m sel s st out st1 :
  Pexec o n ->
  (if r then vexec n o (push_if false c) s (set_mask m st) else Some (VNorm, st)) = Some (out, st1) ->
  chk dv du K (S d) F D s = Some D' ->
  ctxrel dv K d c -> kcond dv du d F K -> kscope K D -> scope_ok dv du d D ->
  (forall l, l < o_width o -> c_fm c l = true -> bits_ok K st l) ->
  (forall l, l < o_width o -> c_fm c l = true -> sel l = true ->
     v_brk st l = false /\ v_cnt st l = false /\ v_ret st l = false /\
     match K with None => True | Some _ => c_be c l = true end) ->
  (r = true -> forall l, l < o_width o -> c_fm c l = true -> m l = sel l) ->
  (r = false -> forall l, l < o_width o -> c_fm c l = true -> sel l = false) ->
  phase (o_width o) dv du K d F D c sel st out st1 (fun l s0 => lexec n (o_funs o) l s s0).
Proof.
  intros IH HE HC HX HK HKS HO HB HS Hm Hn. destruct r.
  - specialize (Hm eq_refl). clear Hn.
    assert (HI : inv (o_width o) K (S d) (push_if false c) (set_mask m st)).
    { intros l Hl Hf. destruct (HB l Hl Hf) as [B1 B2]. specialize (Hm l Hl Hf). specialize (HS l Hl Hf).
      split; [split|].
      - cbn. rewrite Hm. intros X. destruct (HS X) as (Y1 & Y2 & Y3 & _). auto.
      - destruct K; exact B2.
      - split; [discriminate|]. destruct K as [k|]; auto. split.
        + cbn. rewrite Hm. intros X. destruct (HS X) as (_ & _ & _ & Y). exact Y.
        + destruct HK as (K1 & _). intros X. lia. }
    pose proof (ctxrel_push_if dv K d c false HX) as HX1. cbn [plus] in HX1.
    assert (HK1 : kcond dv du (S d) F K) by (eapply kcond_mono; [| |exact HK]; [lia|apply frozen_le_refl]).
    pose proof (IH dv du K (S d) F D D' _ s _ _ _ HE HC HX1 HK1 HKS
                  (scope_ok_mono dv du d (S d) D (Nat.le_succ_diag_r d) HO) HI) as P.
    destruct P as (U & G & Fr & Ac & I & J & B & L & T).
    cbn [set_mask push_if c_fm v_mask] in *.
    unfold phase. split; [exact U|]. split; [exact G|]. split; [|split; [|split; [|split; [exact J|split; [exact B|split; [exact L|]]]]]].
    + intros l Hl Hf Hs. rewrite <- (Hm l Hl Hf) in Hs. pose proof (Fr l Hl Hf Hs) as X.
      destruct out; try exact X. apply X.
    + intros l Hl Hf Hs s0 A. rewrite <- (Hm l Hl Hf) in Hs.
      destruct (Ac l Hl Hf Hs s0 A) as (ol & s' & E & O). exists ol, s'. split; auto.
      eapply outrel_le; [eapply chk_le; eauto|exact O].
    + intros E l Hl Hf. apply (I E l Hl Hf).
    + intros E l Hl Hf. rewrite <- (Hm l Hl Hf). apply (T E l Hl Hf).
  - specialize (Hn eq_refl). injection HE as <- <-.
    unfold phase. split; [apply uframe_refl|]. split; [intros; apply gframe_refl|].
    split; [intros; apply frame0_refl|].
    split; [intros l Hl Hf Hs; rewrite (Hn l Hl Hf) in Hs; discriminate|].
    split; [auto|]. split; [intros [X|X]; discriminate|].
    split; [discriminate|]. split; discriminate.
Qed.

Lemma end_if_bits c saved st :
  v_brk (end_if c saved st) = v_brk st /\ v_cnt (end_if c saved st) = v_cnt st /\
  v_ret (end_if c saved st) = v_ret st /\ v_V (end_if c saved st) = v_V st /\
  v_U (end_if c saved st) = v_U st /\ v_G (end_if c saved st) = v_G st /\
  v_rv (end_if c saved st) = v_rv st /\ v_tr (end_if c saved st) = v_tr st.
Proof. unfold end_if, restore_given_returns. destruct (c_cl c || c_bl c); cbn; repeat split; auto. Qed.

Lemma end_if_mask c saved st l :
  v_mask (end_if c saved st) l =
  saved l && negb (v_ret st l) && negb (c_cl c && v_cnt st l) && negb (c_bl c && v_brk st l).
Proof.
  unfold end_if, restore_given_returns. destruct (c_cl c), (c_bl c); cbn; unfold mand, mnot, mor; cbn;
    unfold mand, mnot, mor, all_off; rewrite ?andb_true_r, ?orb_false_r; auto.
  rewrite negb_orb, andb_assoc. auto.
Qed.

Lemma post_vif o n dv du K d F D Da Db c saved ma mb ra rb a b (t : mask) st out st' :
  Pexec o n ->
  vif (S n) o c saved ma mb ra rb a b st = Some (out, st') ->
  chk dv du K (S d) F D a = Some Da -> chk dv du K (S d) F D b = Some Db ->
  ctxrel dv K d c -> kcond dv du d F K -> kscope K D -> scope_ok dv du d D -> inv (o_width o) K d c st ->
  (forall l, l < o_width o -> c_fm c l = true -> saved l = v_mask st l) ->
  (ra = true -> forall l, l < o_width o -> c_fm c l = true -> ma l = v_mask st l && t l) ->
  (ra = false -> forall l, l < o_width o -> c_fm c l = true -> v_mask st l && t l = false) ->
  (rb = true -> forall l, l < o_width o -> c_fm c l = true -> mb l = v_mask st l && negb (t l)) ->
  (rb = false -> forall l, l < o_width o -> c_fm c l = true -> v_mask st l && negb (t l) = false) ->
  post (o_width o) dv du K d F D D c st out st'
    (fun l s0 => lexec n (o_funs o) l (if t l then a else b) s0).
Proof.
  intros IH HE HCa HCb HX HK HKS HO HI Hsv Ha1 Ha0 Hb1 Hb0.
  pose proof HX as (C1 & C2 & CK).
  assert (LE : d <= S d) by lia.
  pose proof (frozen_le_refl F) as FR.
  pose proof (kcond_mono dv du d (S d) F F K LE FR HK) as HK1.
  cbn [vif] in HE.
  destruct (if ra then vexec n o (push_if false c) a (set_mask ma st) else Some (VNorm, st))
    as [[out1 st1]|] eqn:E1; [|discriminate].
  set (sa := fun l => v_mask st l && t l) in *.
  set (sb := fun l => v_mask st l && negb (t l)) in *.
  assert (PA : phase (o_width o) dv du K d F D c sa st out1 st1 (fun l s0 => lexec n (o_funs o) l a s0)).
  { eapply phase_run; eauto.
    - intros l Hl Hf. apply (HI l Hl Hf).
    - intros l Hl Hf Hs. unfold sa in Hs. apply andb_prop in Hs as [Hs _].
      destruct (HI l Hl Hf) as ((B1 & _) & _ & X). destruct (B1 Hs) as (Y1 & Y2 & Y3).
      repeat split; auto. destruct K as [k|]; auto. apply X; auto. }
  clear E1. destruct PA as (U1 & G1 & F1 & A1 & B1 & J1 & X1 & L1 & T1).
  assert (CASE : (out1 <> VNorm /\ out1 = out /\ st1 = st') \/ out1 = VNorm).
  { destruct out1; auto; injection HE as <- <-; left; split; auto; discriminate. }
  destruct CASE as [(NN & -> & ->)| -> ].
  - (* the true side jumped or returned *)
    clear HE. post_split.
    + eapply uframe_weaken; eauto.
    + exact G1.
    + intros l Hl Hf Hm. eapply framex_weaken; [exact LE|exact FR|].
      assert (Hs : sa l = false) by (unfold sa; rewrite Hm; auto).
      pose proof (F1 l Hl Hf Hs) as X. destruct out; auto. congruence.
    + intros l Hl Hf Hm s Hs. destruct (t l) eqn:Et.
      * assert (Hsa : sa l = true) by (unfold sa; rewrite Hm, Et; auto).
        exact (A1 l Hl Hf Hsa s Hs).
      * exfalso. assert (Hsa : sa l = false) by (unfold sa; rewrite Et; apply andb_false_r).
        pose proof (F1 l Hl Hf Hsa) as X. destruct (HI l Hl Hf) as ((Y1 & _) & _ & Y2).
        destruct (Y1 Hm) as (Z1 & Z2 & Z3).
        assert (JJ : out = VBrk \/ out = VCont -> False).
        { intros HJ. destruct (J1 HJ) as (k & EK & J). subst K. destruct (J l Hl Hf) as [_ J'].
          destruct Y2 as [Y2 _]. specialize (J' (Y2 Hm)).
          assert (Fx : frame dv (S d) F l st st') by (destruct HJ; subst out; exact X).
          destruct Fx as (M & P1 & P2 & P3 & _). destruct J' as [J'|[J'|[J'|J']]]; congruence. }
        destruct out; auto.
        destruct (T1 eq_refl l Hl Hf) as [J|J]; congruence.
    + intros ->. congruence.
    + exact J1.
    + exact X1.
    + exact L1.
    + intros E l Hl Hf. destruct (T1 E l Hl Hf) as [J|J]; auto. left. unfold sa in J. apply andb_prop in J. tauto.
  - destruct (if rb then vexec n o (push_if false c) b (set_mask mb st1) else Some (VNorm, st1))
      as [[out2 st2]|] eqn:E2; [|discriminate].
    assert (FB : forall l, l < o_width o -> c_fm c l = true -> sb l = true -> sa l = false).
    { intros l _ _. unfold sa, sb. destruct (v_mask st l), (t l); cbn; auto; discriminate. }
    assert (PB : phase (o_width o) dv du K d F D c sb st1 out2 st2 (fun l s0 => lexec n (o_funs o) l b s0)).
    { eapply phase_run; eauto.
      intros l Hl Hf Hs. pose proof (F1 l Hl Hf (FB l Hl Hf Hs)) as (P1 & P2 & P3 & _).
      unfold sb in Hs. apply andb_prop in Hs as [Hs _].
      destruct (HI l Hl Hf) as ((Y1 & _) & _ & X). destruct (Y1 Hs) as (Z1 & Z2 & Z3).
      repeat split; try congruence. destruct K as [k|]; auto. apply X; auto. }
    clear E2. destruct PB as (U2 & G2 & F2 & A2 & B2 & J2 & X2 & L2 & T2).
    (* lanes of the true side when the false side runs *)
    assert (TL : forall l, l < o_width o -> c_fm c l = true -> v_mask st l = true -> t l = true ->
              forall s, agree l D st s -> exists ol s', lexec n (o_funs o) l a s = Some (ol, s') /\
                sb l = false /\
                ((ol = LNorm /\ agree l D st1 s' /\ v_brk st1 l = false /\ v_cnt st1 l = false /\ v_ret st1 l = false) \/
                 rec0 K ol l st1 s')).
    { intros l Hl Hf Hm Ht s Hs. assert (Hsa : sa l = true) by (unfold sa; rewrite Hm, Ht; auto).
      destruct (A1 l Hl Hf Hsa s Hs) as (ol & s' & E & O). exists ol, s'. split; auto. split.
      { unfold sb. rewrite Ht. apply andb_false_r. }
      destruct O as [(-> & M & AG)|[M R0]]; auto.
      left. split; auto. split; auto. destruct (B1 eq_refl l Hl Hf) as [Y _]. apply Y; auto. }
    (* lanes of the false side when it starts *)
    assert (FL : forall l, l < o_width o -> c_fm c l = true -> v_mask st l = true -> t l = false ->
              forall s, agree l D st s -> sb l = true /\ agree l D st1 s).
    { intros l Hl Hf Hm Ht s Hs. split; [unfold sb; rewrite Hm, Ht; auto|].
      assert (Hsa : sa l = false) by (unfold sa; rewrite Ht; apply andb_false_r).
      eapply agree_frame; [exact (F1 l Hl Hf Hsa)|exact U1| |exact Hs]. apply scope_ok_pres; auto. }
    (* lanes that are off *)
    assert (OL : forall l, l < o_width o -> c_fm c l = true -> v_mask st l = false ->
              frame0 dv (S d) F l st st1 /\ sb l = false).
    { intros l Hl Hf Hm. split.
      - apply (F1 l Hl Hf). unfold sa. rewrite Hm. auto.
      - unfold sb. rewrite Hm. auto. }
    assert (CASE2 : (out2 <> VNorm /\ out2 = out /\ st2 = st') \/
                    (out2 = VNorm /\ out = VNorm /\ st' = end_if c saved st2)).
    { destruct out2; injection HE as <- <-; auto; left; split; auto; discriminate. }
    destruct CASE2 as [(NN & -> & ->)|(-> & -> & ->)].
    + (* the false side jumped or returned *)
      clear HE.
      assert (U12 : uframe du (S d) F st st') by (eapply uframe_trans; eauto).
      assert (FX : forall l, l < o_width o -> c_fm c l = true -> sb l = false -> framex out dv (S d) F l st1 st').
      { intros l Hl Hf Hs. pose proof (F2 l Hl Hf Hs) as X. destruct out; auto. congruence. }
      post_split.
      * eapply uframe_weaken; eauto.
      * intros l Hl Hf. eapply gframe_trans; eauto.
      * intros l Hl Hf Hm. destruct (OL l Hl Hf Hm) as [Y1 Y2].
        eapply framex_weaken; [exact LE|exact FR|]. eapply framex_trans; eauto.
      * intros l Hl Hf Hm s Hs. destruct (t l) eqn:Et.
        -- destruct (TL l Hl Hf Hm Et s Hs) as (ol & s' & E & Hsb & O). exists ol, s'. split; auto.
           pose proof (FX l Hl Hf Hsb) as Y.
           destruct O as [(-> & AG & Z1 & Z2 & Z3)|R0].
           ++ exfalso. assert (JJ : out = VBrk \/ out = VCont -> False).
              { intros HJ. destruct (J2 HJ) as (k & EK & J). subst K. destruct (J l Hl Hf) as [_ J'].
                destruct (HI l Hl Hf) as (_ & _ & Y2 & _). specialize (J' (Y2 Hm)).
                assert (Fx : frame dv (S d) F l st1 st') by (destruct HJ; subst out; exact Y).
                destruct Fx as (M & P1 & P2 & P3 & _). destruct J' as [J'|[J'|[J'|J']]]; congruence. }
              destruct out; auto.
              destruct (T2 eq_refl l Hl Hf) as [J|J]; congruence.
           ++ destruct out; cbn [outrel]; cbn [framex] in Y.
              ** congruence.
              ** destruct Y as [M Y]. right. split.
                 { split; auto. eapply rec0_frame; eauto. }
                 intros ->. destruct R0 as (k & EK & _ & HC & _). rewrite (X2 eq_refl k EK) in HC. discriminate.
              ** destruct Y as [M Y]. right. split; auto. eapply rec0_frame; eauto.
              ** assert (Hr : v_ret st1 l = true).
                 { destruct (T2 eq_refl l Hl Hf) as [J|J]; auto. congruence. }
                 destruct ol; cbn [rec0] in R0.
                 --- destruct R0.
                 --- destruct R0 as (k & _ & _ & _ & _ & Z & _). congruence.
                 --- destruct R0 as (k & _ & _ & _ & _ & _ & Z & _). congruence.
                 --- split; auto. eapply (framex_agreeG VRet dv (S d) F); [exact Y|]. apply R0.
        -- destruct (FL l Hl Hf Hm Et s Hs) as [Hsb Hs1]. exact (A2 l Hl Hf Hsb s Hs1).
      * intros ->. congruence.
      * exact J2.
      * exact X2.
      * exact L2.
      * intros E l Hl Hf. destruct (v_mask st l) eqn:Hm; auto. right.
        destruct (OL l Hl Hf Hm) as [(_ & _ & P3 & _) Y2].
        destruct (T2 E l Hl Hf) as [J|J]; congruence.
    + (* both sides done: end of the if *)
      clear HE. destruct (end_if_bits c saved st2) as (Q1 & Q2 & Q3 & Q4 & Q5 & Q6 & Q7 & Q8).
      pose proof (fun l => end_if_mask c saved st2 l) as QM.
      set (st' := end_if c saved st2) in *.
      assert (U12 : uframe du (S d) F st st').
      { intros u Hu. rewrite Q5, U2, U1; auto. }
      assert (FE : forall l, frame0 dv (S d) F l st2 st').
      { intros l. unfold frame0, gframe. rewrite Q1, Q2, Q3, Q4, Q6, Q7, Q8. repeat split; auto. }
      assert (UE : uframe du (S d) F st2 st') by (intros u _; rewrite Q5; auto).
      assert (OFF : forall l, l < o_width o -> c_fm c l = true -> v_mask st l = false -> frame dv (S d) F l st st').
      { intros l Hl Hf Hm. destruct (OL l Hl Hf Hm) as [Y1 Y2]. split.
        - rewrite QM, Hsv, Hm; auto.
        - eapply frame0_trans; [exact Y1|]. eapply frame0_trans; [exact (F2 l Hl Hf Y2)|]. apply FE. }
      assert (CFL : forall k, K = Some k -> c_bl c = negb (k_loop k && k_uni k) /\ c_cl c = (k_loop k && negb (k_uni k))).
      { intros k ->. split; apply CK. }
      assert (RMASK : forall ol s' l, l < o_width o -> c_fm c l = true -> rec0 K ol l st' s' -> v_mask st' l = false).
      { intros ol s' l Hl Hf. destruct ol; cbn [rec0].
        - tauto.
        - intros (k & EK & EU & Z1 & Z2 & Z3 & _). destruct (CFL k EK) as [E1 E2].
          rewrite QM, <- Q1, Z1, E1, EU, andb_false_r. cbn. apply andb_false_r.
        - intros (k & EK & EU & EH & Z1 & Z2 & Z3 & _). destruct (CFL k EK) as [E1 E2].
          assert (EL : k_loop k = true).
          { destruct (k_loop k) eqn:EL; auto. subst K. destruct HK as (_ & _ & _ & HK4 & _).
            rewrite HK4 in EH; auto. }
          rewrite QM, <- Q2, Z2, E2, EU, EL. cbn. rewrite andb_false_r. auto.
        - intros (Z1 & Z2 & Z3 & _). rewrite QM, <- Q3, Z3. cbn. rewrite andb_false_r. auto. }
      post_split; notout.
      * eapply uframe_weaken; eauto.
      * intros l Hl Hf. unfold gframe. rewrite Q6, Q8. eapply (gframe_trans l st st1 st2); eauto.
      * intros l Hl Hf Hm. eapply framex_weaken; [exact LE|exact FR|]. apply OFF; auto.
      * intros l Hl Hf Hm s Hs.
        assert (NOK : forall s', v_brk st2 l = false -> v_cnt st2 l = false -> v_ret st2 l = false ->
                   agree l D st' s' -> outrel K VNorm LNorm l D st' s').
        { intros s' Z1 Z2 Z3 AG. left. split; auto. split; auto.
          rewrite QM, Hsv, Hm, Z1, Z2, Z3, !andb_false_r; auto. }
        destruct (t l) eqn:Et.
        -- destruct (TL l Hl Hf Hm Et s Hs) as (ol & s' & E & Hsb & O). exists ol, s'. split; auto.
           pose proof (F2 l Hl Hf Hsb) as Y. cbn in Y. pose proof Y as (P1 & P2 & P3 & _).
           destruct O as [(-> & AG & Z1 & Z2 & Z3)|R0].
           ++ apply NOK; try congruence.
              eapply agree_frame; [apply FE|exact UE|apply scope_ok_pres; eauto|].
              eapply agree_frame; [exact Y|exact U2|apply scope_ok_pres; eauto|exact AG].
           ++ right. assert (R0' : rec0 K ol l st' s').
              { eapply rec0_frame; [exact HK1|apply FE|exact UE|]. eapply rec0_frame; eauto. }
              split; auto. eapply RMASK; eauto.
        -- destruct (FL l Hl Hf Hm Et s Hs) as [Hsb Hs1].
           destruct (A2 l Hl Hf Hsb s Hs1) as (ol & s' & E & O). exists ol, s'. split; auto.
           destruct O as [(-> & M & AG)|[M R0]].
           ++ destruct (B2 eq_refl l Hl Hf) as [Y _]. destruct (Y M) as (Z1 & Z2 & Z3). apply NOK; auto.
              eapply agree_frame; [apply FE|exact UE|apply scope_ok_pres; eauto|exact AG].
           ++ right. assert (R0' : rec0 K ol l st' s').
              { eapply rec0_frame; [exact HK1|apply FE|exact UE|exact R0]. }
              split; auto. eapply RMASK; eauto.
      * intros _ l Hl Hf. destruct (B2 eq_refl l Hl Hf) as [Y1 Y2]. destruct (HI l Hl Hf) as (W1 & W2 & W3).
        assert (MB : v_mask st' l = true -> v_mask st l = true).
        { rewrite QM, Hsv by auto. rewrite <- !andb_assoc. intros X. apply andb_prop in X. tauto. }
        split; [split|split].
        -- rewrite QM. intros X. apply andb_prop in X as [X Xb]. apply andb_prop in X as [X Xc].
           apply andb_prop in X as [_ Xr]. rewrite Q1, Q2, Q3.
           apply negb_true_iff in Xr, Xb, Xc. split; [|split]; auto.
           ++ destruct K as [k|]; [|apply Y2]. destruct (CFL k eq_refl) as [E1 E2].
              rewrite E1 in Xb. destruct (k_loop k && k_uni k) eqn:EE; auto.
              apply Y2. apply andb_prop in EE. tauto.
           ++ destruct K as [k|]; [|apply Y2]. destruct (CFL k eq_refl) as [E1 E2].
              rewrite E2 in Xc. destruct (k_loop k && negb (k_uni k)) eqn:EE; auto.
              apply Y2. destruct HK as (_ & _ & HK3 & HK4 & _).
              destruct (k_uni k); [auto|]. destruct (k_loop k); [discriminate|auto].
        -- destruct K; rewrite Q1, Q2; exact Y2.
        -- intros Ed. destruct (W2 Ed) as [X|X].
           ++ rewrite QM, Hsv, X by auto. rewrite Q3. destruct (v_ret st2 l); auto. left. cbn.
              destruct K as [k|].
              ** destruct HK as (HK1' & _ & HK3 & _ & HK5).
                 assert (EU : k_uni k = true). { destruct (k_uni k); auto. specialize (HK5 eq_refl). lia. }
                 destruct Y2 as [Y2 Y3]. rewrite Y2, Y3; auto. rewrite !andb_false_r; auto.
              ** destruct Y2 as [Y2 Y3]. rewrite Y2, Y3. rewrite !andb_false_r; auto.
           ++ destruct (v_mask st l) eqn:Hm.
              { destruct W1 as [W1 _]. destruct (W1 Hm) as (_ & _ & Z). congruence. }
              right. destruct (OFF l Hl Hf Hm) as (_ & _ & _ & P3 & _). congruence.
        -- destruct K as [k|]; auto. destruct W3 as [W3 W4]. split; [auto|].
           intros D1 D2 D3. destruct (v_mask st l) eqn:Hm.
           ++ rewrite QM, Hsv, Hm, Q1, Q2, Q3 by auto.
              destruct (v_ret st2 l); auto. destruct (v_brk st2 l); auto. destruct (v_cnt st2 l); auto.
              left. rewrite !andb_false_r; auto.
           ++ destruct (OFF l Hl Hf Hm) as (_ & P1 & P2 & P3 & _). rewrite P1, P2, P3.
              destruct (W4 D1 D2 D3) as [X|X]; [congruence|auto].
Qed.
