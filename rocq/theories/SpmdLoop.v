(** Simulation for loops and switches. *)
From Coq Require Import ZArith List Bool Arith Lia.
From Verif Require Import Bits SpmdModel SpmdSpec SpmdRel SpmdProofs SpmdIf.
Import ListNotations.

(** What holds between the start of a loop (or switch) and its end, before the enclosing
    construct's mask is restored. [D] is the scope at the start, [Db] the scope after it. *)
Definition lpost (w : nat) dv du d F (u : bool) (D Db : scope) (c : cx) (st : vst) (out : vout) (st' : vst)
    (R : lane -> lst -> option (lout * lst)) : Prop :=
  (out = VNorm \/ out = VRet) /\
  uframe du d F st st' /\
  (forall l, l < w -> c_fm c l = false -> gframe l st st') /\
  (forall l, l < w -> c_fm c l = true -> v_mask st l = false -> framex out dv d F l st st') /\
  (forall l, l < w -> c_fm c l = true -> v_mask st l = true -> forall s, agree l D st s ->
     exists ol s', R l s = Some (ol, s') /\
       match out with
       | VNorm => (ol = LNorm /\ v_ret st' l = false /\ (u = true -> v_mask st' l = true) /\ agree l Db st' s') \/
                  (ol = LRet /\ v_mask st' l = false /\ v_ret st' l = true /\ agreeG l st' s')
       | _ => ol = LRet /\ agreeG l st' s'
       end) /\
  (out = VRet -> forall l, l < w -> c_fm c l = true -> v_mask st l = true \/ v_ret st l = true).

Lemma lpost_R w dv du d F u D Db c st out st' (R R' : lane -> lst -> option (lout * lst)) :
  (forall l s r, l < w -> c_fm c l = true -> v_mask st l = true -> agree l D st s ->
     R l s = Some r -> R' l s = Some r) ->
  lpost w dv du d F u D Db c st out st' R -> lpost w dv du d F u D Db c st out st' R'.
Proof.
  intros HR (O & U & G & Fr & Ac & T).
  split; [|split; [|split; [|split; [|split]]]]; auto.
  intros l Hl Hf Hm s Hs. destruct (Ac l Hl Hf Hm s Hs) as (ol & s' & E & X).
  exists ol, s'. split; [eapply HR; eauto | exact X].
Qed.

(** A statement outside of any loop or switch (init, step), then the loop. *)
Lemma lpost_seq w dv du d F u D D1 Db c st st1 out st' Ra Rb :
  post w dv du None d F D D1 c st VNorm st1 Ra ->
  lpost w dv du d F u D1 Db c st1 out st' Rb ->
  lpost w dv du d F u D Db c st out st' (seqR Ra Rb).
Proof.
  intros (U & G & Fr & Ac & I & _ & _ & _ & _) (O' & U' & G' & Fr' & Ac' & T').
  split; [|split; [|split; [|split; [|split]]]]; auto.
  - eapply uframe_trans; eauto.
  - intros l Hl Hf. eapply gframe_trans; eauto.
  - intros l Hl Hf Hm. destruct (Fr l Hl Hf Hm) as [M X]. eapply framex_trans; eauto.
  - intros l Hl Hf Hm s Hs. destruct (Ac l Hl Hf Hm s Hs) as (ol & s1 & E & X).
    destruct X as [(-> & M & AG)|[M R0]].
    + destruct (Ac' l Hl Hf M s1 AG) as (ol & s2 & E2 & X2). exists ol, s2. split; auto.
      unfold seqR. rewrite E. auto.
    + destruct ol; cbn [rec0] in R0; try tauto; try (destruct R0 as (k & X & _); discriminate).
      exists LRet, s1. split; [unfold seqR; rewrite E; auto|].
      destruct R0 as (Z1 & Z2 & Z3 & AG). pose proof (Fr' l Hl Hf M) as FX.
      pose proof (framex_agreeG _ _ _ _ _ _ _ _ FX AG) as AG'.
      destruct O' as [ -> | -> ]; auto. right.
      destruct FX as [M' (_ & _ & P3 & _)]. split; auto. split; auto. split; [congruence|auto].
  - intros -> l Hl Hf. destruct (v_mask st l) eqn:Hm; auto. right.
    destruct (Fr l Hl Hf Hm) as [M1 (_ & _ & R1 & _)].
    destruct (T' eq_refl l Hl Hf) as [X|X]; congruence.
Qed.

Lemma post_none_out w dv du d F D D' c st out st' R :
  post w dv du None d F D D' c st out st' R -> out = VNorm \/ out = VRet.
Proof.
  intros (_ & _ & _ & _ & _ & J & _). destruct out; auto.
  - destruct (J (or_introl eq_refl)) as (k & X & _). discriminate.
  - destruct (J (or_intror eq_refl)) as (k & X & _). discriminate.
Qed.

Lemma lpost_ret w dv du d F u D D1 Db c st st' Ra Rb :
  post w dv du None d F D D1 c st VRet st' Ra ->
  lpost w dv du d F u D Db c st VRet st' (seqR Ra Rb).
Proof.
  intros (U & G & Fr & Ac & I & _ & _ & _ & T).
  split; [|split; [|split; [|split; [|split]]]]; auto.
  intros l Hl Hf Hm s Hs. destruct (Ac l Hl Hf Hm s Hs) as (ol & s1 & E & -> & AG).
  exists LRet, s1. unfold seqR. rewrite E. auto.
Qed.

(** The end of a loop or switch. *)
Lemma lpost_end w dv du K d d' F (u : bool) D c c1 st out st1 R :
  d' = (if u then d else S d) ->
  c_fm c1 = c_fm c -> kcond dv du d F K -> inv w K d c st ->
  lpost w dv du d' F u D D c1 (set_bc all_off all_off st) out st1 R ->
  post w dv du K d F D D c st out
    (match out with VNorm => end_loop u st st1 | _ => st1 end) R.
Proof.
  intros Hd Efm HK HI (O & U & G & Fr & Ac & T).
  assert (LE : d <= d') by (destruct u; lia).
  pose proof (frozen_le_refl F) as FR. rewrite Efm in *.
  cbn [set_bc v_mask v_ret] in Ac, Fr, T.
  destruct O as [ -> | -> ].
  - assert (EM : forall l, v_mask (end_loop u st st1) l = if u then v_mask st1 l else v_mask st l && negb (v_ret st1 l)).
    { intros l. unfold end_loop. destruct u; auto. }
    assert (ER : v_ret (end_loop u st st1) = v_ret st1).
    { unfold end_loop; destruct u; auto. }
    assert (EG : v_G (end_loop u st st1) = v_G st1 /\ v_tr (end_loop u st st1) = v_tr st1 /\
                 v_rv (end_loop u st st1) = v_rv st1 /\ v_V (end_loop u st st1) = v_V st1 /\
                 v_U (end_loop u st st1) = v_U st1).
    { unfold end_loop; destruct u; repeat split; auto. }
    destruct EG as (EG & ET & ERV & EV & EU).
    set (st' := end_loop u st st1) in *.
    assert (EB : v_brk st' = v_brk st /\ v_cnt st' = v_cnt st) by (unfold st', end_loop; destruct u; auto).
    destruct EB as [EB EC].
    assert (OFF : forall l, l < w -> c_fm c l = true -> v_mask st l = false -> frame dv d F l st st').
    { intros l Hl Hf Hm. destruct (Fr l Hl Hf Hm) as (M & P1 & P2 & P3 & P4 & P5 & P6).
      split. { rewrite EM, Hm, M. destruct u; auto. }
      unfold frame0, gframe. rewrite EB, EC, ER, ERV, EG, ET, EV. split; [auto|]. split; [auto|].
      split; [exact P3|]. split; [exact P4|]. split; [exact P5|].
      intros x Hx. apply P6. eapply pv_mono; eauto. }
    assert (ACT : forall l, l < w -> c_fm c l = true -> v_mask st l = true -> forall s, agree l D st s ->
              exists ol s', R l s = Some (ol, s') /\
                ((ol = LNorm /\ v_mask st' l = true /\ v_ret st' l = false /\ agree l D st' s') \/
                 (ol = LRet /\ v_mask st' l = false /\ v_ret st' l = true /\ agreeG l st' s'))).
    { intros l Hl Hf Hm s Hs. destruct (Ac l Hl Hf Hm s Hs) as (ol & s' & E & X). exists ol, s'. split; auto.
      unfold agree, agreeG. rewrite EG, ET, ERV, EV, EU, ER, EM. destruct X as [(A1 & A2 & A3 & A4)|(A1 & A2 & A3 & A4)].
      - left. split; auto. split; [|split; auto; exact A4]. destruct u; auto. rewrite Hm, A2; auto.
      - right. split; auto. split; [|split; auto; exact A4]. destruct u; auto. rewrite A3. apply andb_false_r. }
    post_split; notout.
    + intros x Hx. rewrite EU, (U x); auto. eapply pu_mono; eauto.
    + intros l Hl Hf. unfold gframe. rewrite EG, ET. exact (G l Hl Hf).
    + intros l Hl Hf Hm. apply frame_framex, OFF; auto.
    + intros l Hl Hf Hm s Hs. destruct (ACT l Hl Hf Hm s Hs) as (ol & s' & E & X). exists ol, s'. split; auto.
      destruct X as [(A1 & A2 & A3 & A4)|(A1 & A2 & A3 & A4)]; [left; auto|right].
      subst ol. split; auto. cbn [rec0]. destruct (HI l Hl Hf) as ((B1 & _) & _). destruct (B1 Hm) as (Z1 & Z2 & _).
      rewrite EB, EC. auto.
    + intros _ l Hl Hf. destruct (HI l Hl Hf) as ((B1 & B2) & W2 & W3).
      assert (CS : (v_mask st l = true /\ v_mask st' l = true /\ v_ret st' l = false) \/
                   (v_mask st l = true /\ v_mask st' l = false /\ v_ret st' l = true) \/
                   (v_mask st l = false /\ v_mask st' l = false /\ v_ret st' l = v_ret st l)).
      { destruct (v_mask st l) eqn:Hm.
        - destruct (ACT l Hl Hf Hm _ (agree_lane_of l D st)) as (ol & s' & E & X). tauto.
        - destruct (OFF l Hl Hf Hm) as (M & _ & _ & P3 & _). auto. }
      split; [split|split].
      * rewrite EB, EC. intros X. destruct CS as [(M & _ & Y)|[(M & Y & _)|(M & Y & _)]]; [|congruence|congruence].
        destruct (B1 M) as (Z1 & Z2 & _); auto.
      * destruct K; rewrite EB, EC; exact B2.
      * intros E0. destruct CS as [(M & Y & _)|[(M & _ & Y)|(M & _ & Y)]]; auto.
        destruct (W2 E0) as [X|X]; [congruence|]. right; congruence.
      * destruct K as [k|]; auto. destruct W3 as [W3 W4]. split.
        -- intros X. apply W3. destruct CS as [(M & Y & _)|[(M & Y & _)|(M & Y & _)]]; congruence.
        -- intros D1 D2 D3. rewrite EB, EC. destruct CS as [(M & Y & _)|[(M & _ & Y)|(M & _ & Y)]]; auto.
           rewrite Y. destruct (W4 D1 D2 D3) as [X|X]; [congruence|auto].
  - post_split; notout.
    + intros x Hx. rewrite (U x); auto. eapply pu_mono; eauto.
    + exact G.
    + intros l Hl Hf Hm. exact (Fr l Hl Hf Hm).
    + intros l Hl Hf Hm s Hs. destruct (Ac l Hl Hf Hm s Hs) as (ol & s' & E & X). exists ol, s'. split; auto.
    + intros _ l Hl Hf. apply T; auto.
Qed.

(** ** Loops *)

(** The facts about a loop that stay fixed while it runs. *)
Definition loop_ok (o : opts) dv du d F F' (k : kinfo) (D1 : scope) (c : cx) (u : bool) (t : test)
    (step body : stmt) : Prop :=
  k_loop k = true /\ k_uni k = u /\ k_dl k = d /\ k_dc k = D1 /\
  ctxrel dv (Some k) d c /\
  kcond dv du d F' (Some k) /\ frozen_le F F' /\
  scope_le (k_db k) D1 /\ scope_ok dv du d D1 /\
  (u = false -> scope_pres dv du d F (k_db k)) /\
  (u = true -> exists e, t = TU e) /\
  test_ok D1 t = true /\
  (exists Dx, chk dv du (Some k) d F' D1 body = Some Dx) /\
  (exists Dx, chk dv du None d F D1 step = Some Dx).

Definition Ptop (o : opts) (n : nat) : Prop :=
  forall dv du d F F' k D1 c u coh t step body st out st',
    vtop n o c u coh t step body st = Some (out, st') ->
    loop_ok o dv du d F F' k D1 c u t step body ->
    inv (o_width o) None d c st ->
    lpost (o_width o) dv du d F u D1 (k_db k) c st out st' (fun l s => ltop n (o_funs o) l t step body s).

Definition Pbody (o : opts) (n : nat) : Prop :=
  forall dv du d F F' k D1 c u coh t step body st out st',
    vbody n o c u coh t step body st = Some (out, st') ->
    loop_ok o dv du d F F' k D1 c u t step body ->
    inv (o_width o) None d c st ->
    lpost (o_width o) dv du d F u D1 (k_db k) c st out st' (fun l s => lbody n (o_funs o) l t step body s).

Lemma Ptop_S o n : Pbody o n -> Ptop o (S n).
Proof.
  intros IH dv du d F F' k D1 c u coh t step body st out st' HE HL HI.
  pose proof HL as (L1 & L2 & L3 & L4 & L5 & L6 & L7 & L8 & L9 & L10 & L11 & L12 & L13 & L14).
  cbn [vtop] in HE. destruct u.
  - destruct (L11 eq_refl) as [e ->]. cbn [teval] in HE.
    destruct (is_true (ueval (v_U st) e)) eqn:Et.
    + eapply lpost_R; [|eapply IH; eauto]. intros l s r Hl Hf Hm Hs. cbn [ltop].
      rewrite <- (teval_agree l D1 st s (TU e) Hs L12). cbn [teval]. rewrite Et. auto.
    + injection HE as <- <-. split; [|split; [|split; [|split; [|split]]]]; auto.
      * apply uframe_refl.
      * intros; apply gframe_refl.
      * intros. split; auto. apply frame0_refl.
      * intros l Hl Hf Hm s Hs. exists LNorm, s. cbn [ltop].
        rewrite <- (teval_agree l D1 st s (TU e) Hs L12). cbn [teval]. rewrite Et. split; auto.
        left. destruct (HI l Hl Hf) as ((B1 & _) & _). destruct (B1 Hm) as (_ & _ & Z).
        split; [auto|]. split; [auto|]. split; [auto|]. eapply agree_le; eauto.
      * discriminate.
  - set (st1 := set_mask (mand (v_mask st) (teval st t)) st) in *.
    assert (F01 : forall l, frame0 dv d F l st st1) by (intros; repeat split; auto).
    destruct (m_any (o_width o) (full c st1)) eqn:EA.
    + assert (HI1 : inv (o_width o) None d c st1).
      { intros l Hl Hf. destruct (HI l Hl Hf) as ((B1 & B2) & W2 & _). split; [split|split]; auto.
        - cbn. unfold mand. intros X. apply andb_prop in X as [X _]. auto.
        - intros E0. exfalso. destruct L6 as (_ & _ & _ & _ & K5). specialize (K5 L2). lia. }
      destruct (IH _ _ _ _ _ _ _ _ _ _ _ _ _ _ _ _ HE HL HI1) as (O & U & G & Fr & Ac & T).
      split; [|split; [|split; [|split; [|split]]]]; auto.
      * intros l Hl Hf Hm. eapply framex_trans; [apply F01|]. apply Fr; auto. cbn. unfold mand. rewrite Hm; auto.
      * intros l Hl Hf Hm s Hs. cbn [ltop]. rewrite <- (teval_agree l D1 st s t Hs L12).
        destruct (teval st t l) eqn:Et.
        -- apply Ac; auto. cbn. unfold mand. rewrite Hm, Et; auto.
        -- exists LNorm, s. split; auto.
           assert (M1 : v_mask st1 l = false) by (cbn; unfold mand; rewrite Et; apply andb_false_r).
           pose proof (Fr l Hl Hf M1) as FX.
           destruct (HI l Hl Hf) as ((B1 & _) & _). destruct (B1 Hm) as (Z1 & Z2 & Z3).
           destruct O as [ -> | -> ].
           ++ left. destruct FX as [M F2]. split; [auto|].
              split; [destruct F2 as (_ & _ & P3 & _); rewrite P3; exact Z3|].
              split; [discriminate|].
              eapply agree_frame; [exact F2|exact U|exact (L10 eq_refl)|].
              eapply agree_frame; [apply F01|intros x _; auto|exact (L10 eq_refl)|].
              eapply agree_le; eauto.
           ++ exfalso. destruct (T eq_refl l Hl Hf) as [X|X]; [congruence|]. cbn in X. congruence.
      * intros E l Hl Hf. destruct (T E l Hl Hf) as [X|X]; auto. left. cbn in X. unfold mand in X.
        apply andb_prop in X; tauto.
    + injection HE as <- <-. rewrite m_any_false in EA.
      split; [|split; [|split; [|split; [|split]]]]; auto.
      * intros x _; auto.
      * intros; split; auto.
      * intros l Hl Hf Hm. split; [|apply F01]. cbn. unfold mand. rewrite Hm; auto.
      * intros l Hl Hf Hm s Hs. exists LNorm, s. cbn [ltop].
        rewrite <- (teval_agree l D1 st s t Hs L12).
        specialize (EA l Hl). unfold full in EA. cbn in EA. unfold mand in EA. rewrite Hm, Hf, andb_true_r in EA.
        cbn in EA. rewrite EA. split; auto. left.
        destruct (HI l Hl Hf) as ((B1 & _) & _). destruct (B1 Hm) as (_ & _ & Z).
        split; [auto|]. split; [auto|]. split; [discriminate|]. eapply agree_le; eauto.
      * discriminate.
Qed.

Lemma restore_uni c st : c_cl c = false -> c_bl c = false -> restore_continued c st = st.
Proof. unfold restore_continued. intros -> ->. auto. Qed.

Lemma Pbody_S o n : Pexec o n -> Ptop o n -> Pbody o (S n).
Proof.
  intros IHe IHt dv du d F F' k D1 c u coh t step body st out st' HE HL HI.
  pose proof HL as (L1 & L2 & L3 & L4 & L5 & L6 & L7 & L8 & L9 & L10 & L11 & L12 & [Dx L13] & [Dy L14]).
  pose proof L5 as (C1 & C2 & CF & BT & CT & BL & CL & SW). rewrite L1, L2 in BL, CL. cbn in BL, CL.
  cbn [vbody] in HE. set (c2 := set_be (full c st) c) in *.
  set (sa := if coh && negb u && m_all (o_width o) (full c st) then set_mask all_on st else st) in *.
  assert (SA : (forall l, l < o_width o -> c_fm c l = true -> v_mask sa l = v_mask st l) /\
               v_brk sa = v_brk st /\ v_cnt sa = v_cnt st /\ v_ret sa = v_ret st /\ v_V sa = v_V st /\
               v_U sa = v_U st /\ v_G sa = v_G st /\ v_rv sa = v_rv st /\ v_tr sa = v_tr st).
  { unfold sa. destruct (coh && negb u && m_all (o_width o) (full c st)) eqn:EA; [|repeat split; auto].
    apply andb_prop in EA as [_ EA]. rewrite m_all_true in EA. cbn. split; [|repeat split; auto].
    intros l Hl Hf. specialize (EA l Hl). unfold full, mand in EA. apply andb_prop in EA as [EA _]. rewrite EA; auto. }
  destruct SA as (S1 & S2 & S3 & S4 & S5 & S6 & S7 & S8 & S9).
  assert (F0A : forall l, frame0 dv d F l st sa).
  { intros. unfold frame0, gframe. rewrite S2, S3, S4, S5, S7, S8, S9. repeat split; auto. }
  assert (AGA : forall l D s, agree l D st s -> agree l D sa s).
  { intros l D s. unfold agree, agreeG. rewrite S5, S6, S7, S8, S9. auto. }
  assert (HIA : inv (o_width o) (Some k) d c2 sa).
  { intros l Hl Hf. change (c_fm c l = true) in Hf. destruct (HI l Hl Hf) as ((B1 & B2) & W2 & _).
    unfold bits_ok. rewrite S2, S3, S4, (S1 l Hl Hf). split; [split|split]; auto.
    - destruct B2 as [Z1 Z2]. auto.
    - split.
      + intros M. cbn. unfold full, mand. rewrite M, Hf. auto.
      + intros _ _ X. cbn in X. unfold full, mand in X. apply andb_prop in X as [X _]. auto. }
  assert (HKS : kscope (Some k) D1).
  { cbn. split; auto. rewrite L4. apply scope_le_refl. }
  destruct (vexec n o c2 body sa) as [[outb st2]|] eqn:EB; [|discriminate].
  pose proof (IHe dv du (Some k) d F' D1 Dx c2 body sa outb st2 EB L13 L5 L6 HKS L9 HIA)
    as (U & G & Fr & Ac & I & J & XB & XL & T).
  assert (Fr' : forall l, l < o_width o -> c_fm c l = true -> v_mask st l = false -> framex outb dv d F l st st2).
  { intros l Hl Hf Hm. eapply framex_trans; [apply F0A|]. eapply framex_weaken; [|exact L7|]; [apply Nat.le_refl|].
    apply Fr; auto. rewrite S1; auto. }
  assert (U' : uframe du d F st st2).
  { intros x Hx. rewrite (U x); [rewrite S6; auto|]. eapply pu_mono; [apply Nat.le_refl|exact L7|exact Hx]. }
  assert (G' : forall l, l < o_width o -> c_fm c l = false -> gframe l st st2).
  { intros l Hl Hf. eapply gframe_trans; [|exact (G l Hl Hf)]. apply F0A. }
  assert (Ac' : forall l, l < o_width o -> c_fm c l = true -> v_mask st l = true -> forall s, agree l D1 st s ->
            exists ol s', lexec n (o_funs o) l body s = Some (ol, s') /\ outrel (Some k) outb ol l Dx st2 s').
  { intros l Hl Hf Hm s Hs. apply Ac; auto. rewrite S1; auto. }
  destruct L6 as (K1 & K2 & K3 & K4 & K5).
  assert (CASE : (outb = VBrk /\ out = VNorm /\ st' = st2) \/ (outb = VRet /\ out = VRet /\ st' = st2) \/
     ((outb = VNorm \/ outb = VCont) /\
      match vexec n o c2 step (restore_continued c st2) with
      | Some (VNorm, st3) => vtop n o c u coh t step body st3
      | r => r
      end = Some (out, st'))).
  { destruct outb; auto.
    - injection HE as <- <-. auto.
    - injection HE as <- <-. auto. }
  clear HE. destruct CASE as [( -> & -> & -> )|[( -> & -> & -> )|[ON HE]]].
  - (* the whole gang breaks *)
    split; [|split; [|split; [|split; [|split]]]]; auto.
    + intros l Hl Hf Hm s Hs. destruct (Ac' l Hl Hf Hm s Hs) as (ol & s' & E & X).
      cbn [lbody]. rewrite E. destruct X as [(-> & M & k' & Ek & AG)|[[M R0] NC]].
      * injection Ek as <-. exists LNorm, s'. split; auto. left.
        destruct (J (or_introl eq_refl)) as (k' & _ & JJ). destruct (JJ l Hl Hf) as ((B1 & _) & _).
        destruct (B1 M) as (_ & _ & Z). auto.
      * destruct ol; cbn [rec0] in R0; try tauto.
        -- destruct R0 as (k' & Ek & EU & Z1 & Z2 & Z3 & AG). injection Ek as <-.
           exists LNorm, s'. split; auto. left. split; auto. split; auto. split; auto. intros; congruence.
        -- destruct R0 as (Z1 & Z2 & Z3 & AG). exists LRet, s'. split; auto.
    + discriminate.
  - (* the whole gang returns *)
    split; [|split; [|split; [|split; [|split]]]]; auto.
    + intros l Hl Hf Hm s Hs. destruct (Ac' l Hl Hf Hm s Hs) as (ol & s' & E & -> & AG).
      cbn [lbody]. rewrite E. exists LRet, s'. auto.
    + intros E l Hl Hf. destruct (T E l Hl Hf) as [X|X].
      * rewrite S1 in X; auto.
      * rewrite S4 in X; auto.
  - (* continue with the step *)
    set (st3 := restore_continued c st2) in *.
    (* the lanes after RestoreContinuedLanes *)
    assert (LN : forall l, l < o_width o -> c_fm c l = true -> v_mask st l = true -> forall s, agree l D1 st s ->
              exists ol s', lexec n (o_funs o) l body s = Some (ol, s') /\
                (((ol = LNorm \/ ol = LCont) /\ v_mask st3 l = true /\ v_brk st3 l = false /\ v_cnt st3 l = false /\
                  v_ret st3 l = false /\ agree l D1 st3 s') \/
                 (ol = LBrk /\ u = false /\ v_mask st3 l = false /\ v_brk st3 l = false /\ v_cnt st3 l = false /\
                  v_ret st3 l = false /\ agree l (k_db k) st3 s') \/
                 (ol = LRet /\ v_mask st3 l = false /\ v_brk st3 l = false /\ v_cnt st3 l = false /\
                  v_ret st3 l = true /\ agreeG l st3 s'))).
    { intros l Hl Hf Hm s Hs. destruct (Ac' l Hl Hf Hm s Hs) as (ol & s' & E & X). exists ol, s'. split; auto.
      assert (BO : bits_ok (Some k) st2 l).
      { destruct ON as [ -> | -> ].
        - apply (I eq_refl l Hl Hf).
        - destruct (J (or_intror eq_refl)) as (k' & Ek & JJ). apply (JJ l Hl Hf). }
      assert (X' : ((ol = LNorm \/ ol = LCont) /\ v_mask st2 l = true /\ agree l D1 st2 s') \/ rec (Some k) ol l st2 s').
      { destruct ON as [ -> | -> ]; cbn [outrel] in X.
        - destruct X as [(A1 & A2 & A3)|X]; auto. left. split; auto. split; auto.
          eapply agree_le; [|exact A3]. eapply chk_le; eauto.
        - destruct X as [(A1 & A2 & k' & Ek & A3)|X]; auto. injection Ek as <-. left. rewrite L4 in A3. auto. }
      clear X.
      assert (AG3 : forall D0, agree l D0 st2 s' -> agree l D0 st3 s').
      { intros D0. unfold st3, restore_continued, agree, agreeG. destruct (c_cl c), (c_bl c); cbn; auto. }
      assert (AGG3 : agreeG l st2 s' -> agreeG l st3 s').
      { unfold st3, restore_continued, agreeG. destruct (c_cl c), (c_bl c); cbn; auto. }
      assert (M3 : v_mask st3 l = v_mask st2 l || (negb u && v_cnt st2 l)).
      { unfold st3, restore_continued. rewrite CL, BL. destruct u; cbn; auto. rewrite orb_false_r; auto. }
      assert (B3 : v_brk st3 l = u && v_brk st2 l).
      { unfold st3, restore_continued. rewrite CL, BL. destruct u; cbn; auto. }
      assert (N3 : v_cnt st3 l = u && v_cnt st2 l).
      { unfold st3, restore_continued. rewrite CL, BL. destruct u; cbn; auto. }
      assert (R3 : v_ret st3 l = v_ret st2 l).
      { unfold st3, restore_continued. rewrite CL, BL. destruct u; cbn; auto. }
      rewrite M3, B3, N3, R3.
      destruct X' as [(A1 & A2 & A3)|[M R0]].
      - left. destruct BO as [B1 _]. destruct (B1 A2) as (Z1 & Z2 & Z3). rewrite A2, Z1, Z2, Z3, !andb_false_r.
        auto 12.
      - rewrite M. destruct ol; cbn [rec0] in R0; try tauto.
        + destruct R0 as (k' & Ek & EU & Z1 & Z2 & Z3 & AG). injection Ek as <-. right. left.
          destruct u; [congruence|]. rewrite Z2, Z3. cbn.
          auto 12.
        + destruct R0 as (k' & Ek & EU & EH & Z1 & Z2 & Z3 & AG). injection Ek as <-. left.
          destruct u; [congruence|]. rewrite Z2, Z3. cbn. rewrite L4 in AG.
          auto 12.
        + destruct R0 as (Z1 & Z2 & Z3 & AG). right. right. rewrite Z1, Z2, Z3, !andb_false_r.
          auto 12. }
    assert (OFF : forall l, l < o_width o -> c_fm c l = true -> v_mask st l = false -> frame dv d F l st st3).
    { intros l Hl Hf Hm. pose proof (Fr' l Hl Hf Hm) as X.
      assert (Y : frame dv d F l st st2) by (destruct ON; subst outb; exact X). clear X.
      destruct Y as (M & P1 & P2 & P3 & P4 & P5 & P6).
      destruct (HI l Hl Hf) as ((_ & Z1 & Z2) & _).
      unfold st3, restore_continued. rewrite CL, BL. destruct u; cbn.
      - split; auto. repeat split; auto; apply P5.
      - split; [cbn; unfold mor; rewrite M, P2, Z2; auto|].
        unfold frame0; cbn. unfold all_off. rewrite Z1, Z2. repeat split; auto; apply P5. }
    assert (U3 : uframe du d F st st3).
    { intros x Hx. unfold st3, restore_continued. destruct (c_cl c), (c_bl c); cbn; apply U'; auto. }
    assert (G3 : forall l, l < o_width o -> c_fm c l = false -> gframe l st st3).
    { intros l Hl Hf. unfold st3, restore_continued. destruct (c_cl c), (c_bl c); cbn; apply G'; auto. }
    assert (HI3 : inv (o_width o) None d c2 st3).
    { intros l Hl Hf. destruct (HI l Hl Hf) as ((_ & Z1 & Z2) & W2 & _).
      destruct (v_mask st l) eqn:Hm.
      - destruct (LN l Hl Hf Hm _ (agree_lane_of l D1 st)) as (ol & s' & _ & X).
        destruct X as [(A1 & A2 & A3 & A4 & A5 & A6)|[(A1 & A0 & A2 & A3 & A4 & A5 & A6)|(A1 & A2 & A3 & A4 & A5 & A6)]].
        + repeat split; auto.
        + repeat split; auto; try congruence. intros E0. specialize (K5 (eq_trans L2 A0)). lia.
        + repeat split; auto; try congruence.
      - destruct (OFF l Hl Hf Hm) as (M & P1 & P2 & P3 & _).
        repeat split; auto; try congruence. intros E0. right. destruct (W2 E0); congruence. }
    destruct (vexec n o c2 step st3) as [[outs st4]|] eqn:ES; [|discriminate].
    assert (PS : post (o_width o) dv du None d F D1 Dy c2 st3 outs st4 (fun l s0 => lexec n (o_funs o) l step s0)).
    { eapply IHe; eauto; [|exact Logic.I|exact Logic.I]. apply (ctxrel_none dv (Some k)). exact L5. }
    (* the rest of the loop from the step on *)
    assert (REST : lpost (o_width o) dv du d F u D1 (k_db k) c2 st3 out st'
              (seqR (fun l s0 => lexec n (o_funs o) l step s0) (fun l s0 => ltop n (o_funs o) l t step body s0))).
    { destruct (post_none_out _ _ _ _ _ _ _ _ _ _ _ _ PS) as [ -> | -> ].
      - assert (HI4 : inv (o_width o) None d c st4).
        { destruct PS as (_ & _ & _ & _ & IS & _). exact (IS eq_refl). }
        pose proof (IHt dv du d F F' k D1 c u coh t step body st4 out st' HE HL HI4) as HT.
        eapply (lpost_seq _ _ _ _ _ _ _ D1 _ _ _ st4); [|exact HT].
        eapply post_scope; [apply scope_le_refl|eapply chk_le; eauto|exact PS].
      - injection HE as <- <-. eapply lpost_ret; eauto. }
    clear HE PS ES. destruct REST as (O4 & U4 & G4 & F4 & A4 & T4).
    cbn [set_be c_fm c2] in G4, F4, A4, T4.
    split; [|split; [|split; [|split; [|split]]]]; auto.
    + eapply uframe_trans; eauto.
    + intros l Hl Hf. eapply gframe_trans; [exact (G3 l Hl Hf)|exact (G4 l Hl Hf)].
    + intros l Hl Hf Hm. destruct (OFF l Hl Hf Hm) as [M X]. eapply framex_trans; [exact X|]. apply F4; auto.
    + intros l Hl Hf Hm s Hs. cbn [lbody].
      destruct (LN l Hl Hf Hm s Hs) as (ol & s' & E & X). rewrite E.
      destruct X as [(A1 & B2 & B3 & B4 & B5 & B6)|[(A1 & B1 & B2 & B3 & B4 & B5 & B6)|(A1 & B2 & B3 & B4 & B5 & B6)]].
      * destruct (A4 l Hl Hf B2 s' B6) as (ol2 & s2 & E2 & X2). exists ol2, s2. split; auto.
        unfold seqR in E2. destruct A1; subst ol; destruct (lexec n (o_funs o) l step s') as [[[] ?]|]; auto.
      * subst ol. exists LNorm, s'. split; auto.
        pose proof (F4 l Hl Hf B2) as FX. destruct O4 as [ -> | -> ].
        -- left. destruct FX as [M FX]. split; auto. split; [destruct FX as (_ & _ & P3 & _); congruence|].
           split; [congruence|]. eapply agree_frame; [exact FX|exact U4|exact (L10 B1)|exact B6].
        -- exfalso. destruct (T4 eq_refl l Hl Hf); congruence.
      * subst ol. exists LRet, s'. split; auto. pose proof (F4 l Hl Hf B2) as FX.
        pose proof (framex_agreeG _ _ _ _ _ _ _ _ FX B6) as AG.
        destruct O4 as [ -> | -> ]; auto. right. destruct FX as [M (_ & _ & P3 & _)].
        split; auto. split; auto. split; auto. congruence.
    + intros E l Hl Hf. destruct (v_mask st l) eqn:Hm; auto. right.
      destruct (OFF l Hl Hf Hm) as (M & _ & _ & P3 & _). destruct (T4 E l Hl Hf); congruence.
Qed.
