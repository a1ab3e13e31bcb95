(** Gang execution simulates every instance's serial execution. *)
From Coq Require Import ZArith List Bool Arith Lia.
From Verif Require Import Bits SpmdModel SpmdSpec SpmdRel.
Import ListNotations.

Ltac post_split :=
  unfold post; split; [|split; [|split; [|split; [|split; [|split; [|split; [|split]]]]]]].

Ltac notout := try (let X := fresh in intros X; discriminate X); try (let X := fresh in intros [X|X]; discriminate X).

Lemma post_R w dv du K d F D D' c st out st' (R R' : lane -> lst -> option (lout * lst)) :
  (forall l s r, l < w -> c_fm c l = true -> v_mask st l = true -> agree l D st s ->
     R l s = Some r -> R' l s = Some r) ->
  post w dv du K d F D D' c st out st' R -> post w dv du K d F D D' c st out st' R'.
Proof.
  intros HR (U & G & Fr & Ac & I & J & B & L & T).
  post_split; auto.
  intros l Hl Hf Hm s Hs. destruct (Ac l Hl Hf Hm s Hs) as (ol & s' & E & O).
  exists ol, s'. split; [eapply HR; eauto | exact O].
Qed.

(** Weaker scope afterwards, stronger scope before. *)
Lemma outrel_le K out ol l A B st s : scope_le A B -> outrel K out ol l B st s -> outrel K out ol l A st s.
Proof.
  intros HL. destruct out; cbn [outrel]; auto.
  intros [(E & M & AG)|R]; [left|right; auto]. split; [auto|split; [auto|]]. eapply agree_le; eauto.
Qed.

Lemma post_scope w dv du K d F D D' A B c st out st' R :
  scope_le D A -> scope_le B D' ->
  post w dv du K d F D D' c st out st' R -> post w dv du K d F A B c st out st' R.
Proof.
  intros HD HB (U & G & Fr & Ac & I & J & Bk & L & T). post_split; auto.
  intros l Hl Hf Hm s Hs.
  destruct (Ac l Hl Hf Hm s (agree_le _ _ _ _ _ HD Hs)) as (ol & s' & E & O).
  exists ol, s'. split; auto. eapply outrel_le; eauto.
Qed.

Definition seqR (Ra Rb : lane -> lst -> option (lout * lst)) (l : lane) (s : lst) :=
  match Ra l s with Some (LNorm, s1) => Rb l s1 | r => r end.

Lemma post_seq w dv du K d F D D1 D2 c st st1 out st2 Ra Rb :
  kcond dv du d F K ->
  post w dv du K d F D D1 c st VNorm st1 Ra ->
  post w dv du K d F D1 D2 c st1 out st2 Rb ->
  post w dv du K d F D D2 c st out st2 (seqR Ra Rb).
Proof.
  intros HK (U & G & Fr & Ac & I & _ & _ & _ & _) (U' & G' & Fr' & Ac' & I' & J' & B' & L' & T').
  post_split; auto.
  - eapply uframe_trans; eauto.
  - intros l Hl Hf. eapply gframe_trans; eauto.
  - intros l Hl Hf Hm. destruct (Fr l Hl Hf Hm) as [M H]. eapply framex_trans; eauto.
  - intros l Hl Hf Hm s Hs. destruct (Ac l Hl Hf Hm s Hs) as (ol & s1 & E & O).
    destruct O as [(-> & M & AG)|[M R0]].
    + destruct (Ac' l Hl Hf M s1 AG) as (ol & s2 & E2 & O2).
      exists ol, s2. split; auto. unfold seqR. rewrite E. auto.
    + exists ol, s1. split.
      { unfold seqR. rewrite E. destruct ol; auto. destruct R0. }
      pose proof (Fr' l Hl Hf M) as F2.
      destruct out; cbn [outrel]; cbn [framex] in F2.
      * right. destruct F2. split; auto. eapply rec0_frame; eauto.
      * right. destruct F2. split; [split; auto; eapply rec0_frame; eauto|].
        intros ->. destruct R0 as (k & EK & _ & HC & _).
        rewrite (B' eq_refl k EK) in HC. discriminate.
      * right. destruct F2. split; auto. eapply rec0_frame; eauto.
      * assert (Hr : v_ret st1 l = true).
        { destruct (T' eq_refl l Hl Hf) as [X|X]; auto. congruence. }
        destruct ol; cbn [rec0] in R0.
        -- destruct R0.
        -- destruct R0 as (k & _ & _ & _ & _ & X & _). congruence.
        -- destruct R0 as (k & _ & _ & _ & _ & _ & X & _). congruence.
        -- split; auto. eapply (framex_agreeG VRet dv d F); [exact F2|]. apply R0.
  - intros -> l Hl Hf. destruct (v_mask st l) eqn:Hm; auto. right.
    destruct (Fr l Hl Hf Hm) as [M1 (_ & _ & R1 & _)].
    destruct (T' eq_refl l Hl Hf) as [X|X]; congruence.
Qed.

(** A statement that changes neither masks nor lane bits. *)
Lemma post_basic w dv du K d F D D' c st st' R :
  inv w K d c st ->
  v_mask st' = v_mask st -> v_brk st' = v_brk st -> v_cnt st' = v_cnt st -> v_ret st' = v_ret st ->
  v_rv st' = v_rv st ->
  uframe du d F st st' ->
  (forall l, l < w -> v_mask st l && c_fm c l = false -> gframe l st st') ->
  (forall l, l < w -> c_fm c l = true -> v_mask st l = false ->
     forall x, pv dv d F x -> v_V st' x l = v_V st x l) ->
  (forall l, l < w -> c_fm c l = true -> v_mask st l = true -> forall s, agree l D st s ->
     exists s', R l s = Some (LNorm, s') /\ agree l D' st' s') ->
  post w dv du K d F D D' c st VNorm st' R.
Proof.
  intros HI E1 E2 E3 E4 E5 HU HG HV HA. post_split; notout; auto.
  - intros l Hl Hf. apply HG; auto. rewrite Hf. apply andb_false_r.
  - intros l Hl Hf Hm. split; [congruence|]. repeat split; try congruence.
    + apply HG; auto. rewrite Hm; auto.
    + apply HG; auto. rewrite Hm; auto.
    + intros x Hx. apply HV; auto.
  - intros l Hl Hf Hm s Hs. destruct (HA l Hl Hf Hm s Hs) as (s' & ER & AG).
    exists LNorm, s'. split; [auto|]. left. split; [auto|]. split; [congruence|auto].
  - intros _ l Hl Hf. specialize (HI l Hl Hf). unfold bits_ok in *. rewrite E1, E2, E3, E4. exact HI.
Qed.

Lemma gkey_eqb_eq a b : gkey_eqb a b = true <-> a = b.
Proof.
  destruct a as [b1 n1], b as [b2 n2]. unfold gkey_eqb; cbn. rewrite andb_true_iff, eqb_true_iff, Nat.eqb_eq.
  split; [intros [-> ->]; auto | intros H; injection H; auto].
Qed.

(** Storing to a varying symbol, after the callee (if any) has changed file-scope variables
    and the trace from [st] to [stc]. *)
Lemma post_store w dv du K d F D c st stc x f R :
  inv w K d c st -> ctxrel dv K d c -> scope_ok dv du d D ->
  assign_ok dv d F D x = true ->
  v_mask stc = v_mask st -> v_brk stc = v_brk st -> v_cnt stc = v_cnt st -> v_ret stc = v_ret st ->
  v_rv stc = v_rv st -> v_V stc = v_V st -> v_U stc = v_U st ->
  (forall l, l < w -> v_mask st l && c_fm c l = false -> gframe l st stc) ->
  (forall l, l < w -> c_fm c l = true -> v_mask st l = true -> forall s, agree l D st s ->
     exists s1, agree l D stc s1 /\ R l s = Some (LNorm, lassign s1 x (f l))) ->
  post w dv du K d F D D c st VNorm (store c stc x f) R.
Proof.
  intros HI (C1 & C2 & _) HO HX E1 E2 E3 E4 E5 E6 E7 HG HR.
  apply post_basic; auto; try (destruct x; cbn [store set_V set_G v_mask v_brk v_cnt v_ret v_rv]; assumption).
  - intros u _. destruct x; cbn [store set_V set_G v_U]; congruence.
  - intros l Hl Hm. pose proof (HG l Hl Hm) as HG1. rewrite <- E1 in Hm. destruct x as [y|b y]; [exact HG1|].
    destruct HG1 as [HG1 HG2].
    split; cbn [store set_G v_G v_tr]; auto. intros g. unfold gupd. rewrite <- HG1.
    destruct (gkey_eqb g (b, y)) eqn:E; auto. apply gkey_eqb_eq in E. subst g.
    unfold blend, store_mask. destruct b.
    + unfold full, mand. rewrite Hm; auto.
    + cbn [assign_ok] in HX. rewrite C2. destruct (0 =? d); [discriminate|].
      unfold full, mand. rewrite Hm; auto.
  - intros l Hl Hf Hm z Hz. destruct x as [y|b y]; [|cbn [store set_G v_V]; rewrite E6; auto].
    cbn [store set_V v_V]. rewrite E6. unfold upd. destruct (z =? y) eqn:E; auto. apply Nat.eqb_eq in E. subst z.
    unfold blend, store_mask. rewrite C1, C2. cbn [assign_ok] in HX.
    destruct (dv y =? d) eqn:Ed.
    + apply Nat.eqb_eq in Ed. exfalso. destruct Hz as [Hz|Hz]; [lia|].
      apply mem_In in Hz. rewrite Hz in HX. rewrite andb_false_r in HX. discriminate.
    + rewrite E1, Hm; auto.
  - intros l Hl Hf Hm s Hs. destruct (HR l Hl Hf Hm s Hs) as (s1 & A1 & ER).
    eexists. split; [exact ER|]. destruct A1 as ((G1 & G2 & G3) & AV & AU). rewrite <- E1 in Hm.
    destruct x as [y|b y]; cbn [store lassign set_V set_G].
    + repeat split; cbn; auto. intros z Hz. unfold upd. destruct (z =? y) eqn:E; auto.
      unfold blend, store_mask. destruct (c_dep c y =? vdepth (c_cf c)); [auto|]. rewrite Hm; auto.
    + repeat split; cbn; auto. intros g. unfold gupd. destruct (gkey_eqb g (b, y)) eqn:E; auto.
      unfold blend, store_mask, full, mand. destruct b; [rewrite Hm, Hf; auto|].
      destruct (vdepth (c_cf c)); [auto|]. rewrite Hm, Hf; auto.
Qed.

(** ** Jumps *)

Lemma all_lanes_done_loop w c st :
  c_bl c = true -> all_lanes_done w c st = true ->
  forall l, l < w -> c_be c l = true ->
    v_brk st l = true \/ v_cnt st l = true \/ v_ret st l = true.
Proof.
  unfold all_lanes_done. intros HB H l Hl Hbe. rewrite HB in H. cbn [negb] in H.
  rewrite m_equal_true in H. specialize (H l Hl). rewrite Hbe in H. unfold mand, mor in H.
  apply andb_prop in H as [H _].
  destruct (c_cl c); cbn in H; rewrite ?orb_true_iff in H; tauto.
Qed.

Lemma post_break w dv du K d F D D' c st out st' :
  do_break w c st = Some (out, st') -> chk dv du K d F D SBreak = Some D' ->
  ctxrel dv K d c -> kcond dv du d F K -> kscope K D -> inv w K d c st ->
  post w dv du K d F D D' c st out st' (fun _ s => Some (LBrk, s)).
Proof.
  intros HE HC (C1 & C2 & CK) HK HS HI. cbn [chk] in HC.
  destruct K as [k|]; [|discriminate]. destruct CK as (CF & BT & CT & BL & CL & SW).
  destruct HK as (K1 & K2 & K3 & K4 & K5). destruct HS as [HS _].
  unfold do_break in HE. rewrite BT in HE. cbn [negb] in HE.
  rewrite (cfrel_in_switch _ _ _ CF) in HE.
  pose proof (cfrel_ifs _ _ _ CF) as IU. unfold jump_break in HC.
  assert (HJ : (if negb (k_loop k) && c_swu c && ifs_all_uniform CSwitch (c_cf c) then true
                else negb (negb (k_loop k)) && ifs_all_uniform CLoop (c_cf c)) =
               ((d =? k_dl k) && (k_loop k || k_sc k))).
  { destruct (k_loop k); cbn in IU |- *.
    - rewrite IU. destruct (d =? k_dl k); auto.
    - rewrite (SW eq_refl), IU. destruct (k_sc k), (d =? k_dl k); auto. }
  destruct ((d =? k_dl k) && (k_loop k || k_sc k)) eqn:EJ.
  - (* a jump *)
    destruct (k_hasc k) eqn:EH; [discriminate|]. injection HC as <-.
    assert (HE' : Some (VBrk, st) = Some (out, st')).
    { destruct (negb (k_loop k) && c_swu c && ifs_all_uniform CSwitch (c_cf c)); [exact HE|].
      rewrite HJ in HE. exact HE. }
    injection HE' as <- <-. clear HE.
    apply andb_prop in EJ as [E1 E2]. apply Nat.eqb_eq in E1.
    post_split; notout; auto.
    + apply uframe_refl.
    + intros; apply gframe_refl.
    + intros l Hl Hf Hm. split; auto. apply frame0_refl.
    + intros l Hl Hf Hm s Hs. exists LBrk, s. split; auto. left. split; [auto|]. split; [auto|].
      exists k. split; auto. eapply agree_le; eauto.
    + intros _. exists k. split; auto. intros l Hl Hf. destruct (HI l Hl Hf) as (B & _ & _ & X).
      split; auto.
    + intros _ k' Ek. injection Ek as <-. auto.
  - destruct (k_uni k) eqn:EU; [discriminate|]. injection HC as <-.
    assert (HE' : (let s1 := set_mask all_off (set_bc (mor (v_mask st) (v_brk st)) (v_cnt st) st) in
        Some (if all_lanes_done w c s1 then (if k_loop k then VCont else VBrk) else VNorm, s1)) = Some (out, st')).
    { destruct (negb (k_loop k) && c_swu c && ifs_all_uniform CSwitch (c_cf c)); [discriminate|].
      rewrite HJ, CT in HE. destruct (k_loop k); exact HE. }
    clear HE. cbv zeta in HE'. injection HE' as Eo <-.
    set (s1 := set_mask all_off (set_bc (mor (v_mask st) (v_brk st)) (v_cnt st) st)) in *.
    assert (EBL : c_bl c = true). { rewrite BL, andb_false_r. auto. }
    assert (HR : forall l, l < w -> c_fm c l = true -> v_mask st l = true -> forall s, agree l D st s ->
        rec (Some k) LBrk l s1 s).
    { intros l Hl Hf Hm s Hs. destruct (HI l Hl Hf) as ((B1 & B2) & _ & _).
      destruct (B1 Hm) as (X1 & X2 & X3). split; [reflexivity|]. exists k. split; auto. split; auto.
      split; [cbn; unfold mor; rewrite Hm; auto|]. split; [auto|]. split; [auto|].
      eapply agree_le; [exact HS|exact Hs]. }
    assert (HB : forall l, l < w -> c_fm c l = true -> bits_ok (Some k) s1 l).
    { intros l Hl Hf. destruct (HI l Hl Hf) as ((B1 & B2 & B3) & _). split; [discriminate|].
      split; auto. intros; congruence. }
    assert (HF : forall l, v_mask st l = false -> frame dv d F l st s1).
    { intros l Hm. split; [reflexivity|]. repeat split; auto. cbn. unfold mor. rewrite Hm. auto. }
    assert (HJP : all_lanes_done w c s1 = true -> jumped w (Some k) c s1).
    { intros ED. exists k. split; auto. intros l Hl Hf. split; auto. intros Hbe. right.
      eapply all_lanes_done_loop; eauto. }
    post_split.
    + intros u _; reflexivity.
    + intros; split; auto.
    + intros. apply frame_framex, HF; auto.
    + intros l Hl Hf Hm s Hs. exists LBrk, s. split; auto.
      destruct (all_lanes_done w c s1); [destruct (k_loop k)|]; subst out; cbn [outrel]; right; auto.
      split; auto. discriminate.
    + intros -> l Hl Hf. split; [auto|]. split; [intros ->; lia|]. split; [discriminate|].
      intros Ed Ek. rewrite Ed, Nat.eqb_refl, Ek in EJ. discriminate.
    + intros X. apply HJP. destruct (all_lanes_done w c s1); auto. subst out. destruct X; discriminate.
    + intros -> k' Ek. injection Ek as <-. apply K4. destruct (all_lanes_done w c s1); [|discriminate].
      destruct (k_loop k); [discriminate|auto].
    + intros -> k' Ek. injection Ek as <-. destruct (all_lanes_done w c s1); [|discriminate].
      destruct (k_loop k); [auto|discriminate].
    + intros ->. destruct (all_lanes_done w c s1); [destruct (k_loop k)|]; discriminate.
Qed.

Lemma post_continue w dv du K d F D D' c st out st' :
  do_continue w c st = Some (out, st') -> chk dv du K d F D SContinue = Some D' ->
  ctxrel dv K d c -> kcond dv du d F K -> kscope K D -> inv w K d c st ->
  post w dv du K d F D D' c st out st' (fun _ s => Some (LCont, s)).
Proof.
  intros HE HC (C1 & C2 & CK) HK HS HI. cbn [chk] in HC.
  destruct K as [k|]; [|discriminate]. destruct CK as (CF & BT & CT & BL & CL & SW).
  destruct HK as (K1 & K2 & K3 & K4 & K5). destruct HS as [_ HS].
  destruct (k_loop k) eqn:EL; [|discriminate]. cbn [andb] in HC.
  unfold do_continue in HE. rewrite CT in HE. cbn [negb] in HE.
  pose proof (cfrel_ifs _ _ _ CF) as IU. rewrite EL in IU. rewrite IU in HE.
  destruct (d =? k_dl k) eqn:ED.
  - injection HC as <-. injection HE as <- <-. apply Nat.eqb_eq in ED.
    post_split; notout; auto.
    + apply uframe_refl.
    + intros; apply gframe_refl.
    + intros l Hl Hf Hm. split; auto. apply frame0_refl.
    + intros l Hl Hf Hm s Hs. exists LCont, s. split; auto. left. split; [auto|]. split; [auto|].
      exists k. split; auto. eapply agree_le; eauto.
    + intros _. exists k. split; auto. intros l Hl Hf. destruct (HI l Hl Hf) as (B & _ & _ & X).
      split; auto. intros Hbe. apply X; auto. rewrite EL; auto.
    + intros _ k' Ek. injection Ek as <-. auto.
  - cbn [orb] in HC. destruct (k_uni k) eqn:EU; [discriminate|]. cbn [negb andb] in HC.
    destruct (k_hasc k) eqn:EH; [|discriminate]. injection HC as <-.
    apply Nat.eqb_neq in ED.
    cbv zeta in HE. injection HE as Eo <-.
    set (s1 := set_mask all_off (set_bc (v_brk st) (mor (v_mask st) (v_cnt st)) st)) in *.
    assert (EBL : c_bl c = true). { rewrite BL. auto. }
    assert (HR : forall l, l < w -> c_fm c l = true -> v_mask st l = true -> forall s, agree l D st s ->
        rec (Some k) LCont l s1 s).
    { intros l Hl Hf Hm s Hs. destruct (HI l Hl Hf) as ((B1 & B2) & _ & _).
      destruct (B1 Hm) as (X1 & X2 & X3). split; [reflexivity|]. exists k. split; auto. split; auto. split; auto.
      split; [auto|]. split; [cbn; unfold mor; rewrite Hm; auto|]. split; [auto|].
      eapply agree_le; [exact HS|exact Hs]. }
    assert (HB : forall l, l < w -> c_fm c l = true -> bits_ok (Some k) s1 l).
    { intros l Hl Hf. destruct (HI l Hl Hf) as ((B1 & B2 & B3) & _). split; [discriminate|].
      split; intros; congruence. }
    assert (HF : forall l, v_mask st l = false -> frame dv d F l st s1).
    { intros l Hm. split; [reflexivity|]. repeat split; auto. cbn. unfold mor. rewrite Hm. auto. }
    assert (HJP : all_lanes_done w c s1 = true -> jumped w (Some k) c s1).
    { intros EDn. exists k. split; auto. intros l Hl Hf. split; auto. intros Hbe. right.
      eapply all_lanes_done_loop; eauto. }
    post_split.
    + intros u _; reflexivity.
    + intros; split; auto.
    + intros. apply frame_framex, HF; auto.
    + intros l Hl Hf Hm s Hs. exists LCont, s. split; auto.
      destruct (all_lanes_done w c s1); subst out; cbn [outrel]; right; auto.
    + intros -> l Hl Hf. split; [auto|]. split; [intros ->; lia|]. split; [discriminate|].
      intros Ed. congruence.
    + intros X. apply HJP. destruct (all_lanes_done w c s1); auto. subst out. destruct X; discriminate.
    + intros ->. destruct (all_lanes_done w c s1); discriminate.
    + intros -> k' Ek. injection Ek as <-. auto.
    + intros ->. destruct (all_lanes_done w c s1); discriminate.
Qed.

Lemma post_return w dv du K d F D c st e :
  ctxrel dv K d c -> vexpr_ok D e = true -> inv w K d c st ->
  post w dv du K d F D D c st (fst (do_return w c st (fun l => xeval st l e)))
    (snd (do_return w c st (fun l => xeval st l e))) (fun l s => Some (LRet, lreturn s (leval l s e))).
Proof.
  intros (C1 & C2 & CK) HV HI. unfold do_return.
  set (s1 := set_rv (blend (v_mask st) (fun l => xeval st l e) (v_rv st)) st).
  assert (HRV : forall l, v_mask st l = true -> forall s, agree l D st s -> agreeG l s1 (lreturn s (leval l s e))).
  { intros l Hm s Hs. pose proof Hs as ((G1 & G2 & G3) & _). repeat split; auto. cbn. unfold blend. rewrite Hm.
    eapply xeval_agree; eauto. }
  assert (HF : forall l, v_mask st l = false -> gframe l st s1 /\ v_rv s1 l = v_rv st l).
  { intros l Hm. split; [split; auto|]. cbn. unfold blend. rewrite Hm. auto. }
  rewrite C2. destruct (d =? 0) eqn:Ed.
  - apply Nat.eqb_eq in Ed. cbn [fst snd]. post_split; notout.
    + intros u _; reflexivity.
    + intros; split; auto.
    + intros l Hl Hf Hm. apply HF; auto.
    + intros l Hl Hf Hm s Hs. exists LRet. eexists. split; [reflexivity|]. split; auto.
    + intros _ l Hl Hf. destruct (HI l Hl Hf) as (_ & X & _). auto.
  - apply Nat.eqb_neq in Ed. destruct (m_equal w (c_fm c) (mor (v_ret s1) (full c s1))) eqn:EQ; cbn [fst snd].
    + rewrite m_equal_true in EQ. post_split; notout.
      * intros u _; reflexivity.
      * intros; split; auto.
      * intros l Hl Hf Hm. apply HF; auto.
      * intros l Hl Hf Hm s Hs. exists LRet. eexists. split; [reflexivity|]. split; auto.
      * intros _ l Hl Hf. specialize (EQ l Hl). rewrite Hf in EQ. cbn in EQ. unfold mor, full, mand in EQ.
        cbn in EQ. rewrite Hf, andb_true_r in EQ. symmetry in EQ. apply orb_prop in EQ. tauto.
    + post_split; notout.
      * intros u _; reflexivity.
      * intros; split; auto.
      * intros l Hl Hf Hm. destruct (HF l Hm) as [[X1 X2] X3]. split; [reflexivity|]. repeat split; auto.
        cbn. unfold mor, full, mand. cbn. rewrite Hm. cbn. apply orb_false_r.
      * intros l Hl Hf Hm s Hs. exists LRet. eexists. split; [reflexivity|]. right.
        destruct (HI l Hl Hf) as ((B1 & _) & _). destruct (B1 Hm) as (X1 & X2 & X3).
        split; [reflexivity|]. cbn [rec0]. split; [auto|]. split; [auto|]. split.
        { cbn. unfold mor, full, mand. cbn. rewrite Hm, Hf. apply orb_true_r. }
        exact (HRV l Hm s Hs).
      * intros _ l Hl Hf. destruct (HI l Hl Hf) as ((B1 & B2) & _ & X).
        split; [split; [discriminate|exact B2]|]. split; [congruence|].
        destruct K as [k|]; auto. destruct X as [X1 X2]. split; [discriminate|].
        intros A1 A2 A3. destruct (X2 A1 A2 A3) as [Y|[Y|[Y|Y]]]; auto; right; right; right;
          cbn; unfold mor, full, mand; cbn.
        -- rewrite Y, Hf. apply orb_true_r.
        -- rewrite Y. auto.
Qed.
