(** Statements that cannot switch lanes off leave the mask alone; directly in the body of a
    loop that started with a lane on, a lane is left on. *)
From Coq Require Import ZArith List Bool Arith Lia.
From Verif Require Import Bits SpmdModel SpmdSpec SpmdRel SpmdGuard SpmdLive SpmdLive2.
Import ListNotations.

(** ** Where break and continue may stand *)

Inductive kd := KN | KS | KL.

Fixpoint wfs (k : kd) (s : stmt) : bool :=
  match s with
  | SBreak => match k with KN => false | _ => true end
  | SContinue => match k with KL => true | _ => false end
  | SSeq a b => wfs k a && wfs k b
  | SIf _ _ a b => wfs k a && wfs k b
  | SDo _ body _ => wfs KL body
  | SFor _ i _ st body => wfs KN i && wfs KN st && wfs KL body
  | SSwitch _ ss => wfs_secs KS ss
  | _ => true
  end
with wfs_secs (k : kd) (ss : secs) : bool :=
  match ss with
  | SNil => true
  | SSec _ b r => wfs k b && wfs_secs k r
  end.

Definition kof (K : option kinfo) : kd :=
  match K with None => KN | Some k => if k_loop k then KL else KS end.

Lemma chk_wfs dv du :
  (forall s K d F D D', chk dv du K d F D s = Some D' -> wfs (kof K) s = true) /\
  (forall ss K d F D, chk_secs dv du K d F D ss = true -> wfs_secs (kof K) ss = true).
Proof.
  apply stmt_secs_ind2; intros; cbn [wfs wfs_secs]; auto.
  - cbn [chk] in H1. destruct (chk dv du K d F D a) eqn:E; [|discriminate]. rewrite (H _ _ _ _ _ E), (H0 _ _ _ _ _ H1). auto.
  - cbn [chk] in H1. destruct (test_ok D t); [|discriminate].
    destruct (chk dv du K _ F D a) eqn:E; [|discriminate]. destruct (chk dv du K _ F D b) eqn:E2; [|discriminate].
    rewrite (H _ _ _ _ _ E), (H0 _ _ _ _ _ E2). auto.
  - cbn [chk] in H0. destruct (test_ok D t); [|discriminate].
    match type of H0 with context [chk dv du (Some ?k) ?d' F D body] =>
      destruct (chk dv du (Some k) d' F D body) eqn:E; [|discriminate] end.
    exact (H _ _ _ _ _ E).
  - cbn [chk] in H2. cbv zeta in H2.
    match type of H2 with context [chk dv du None ?d' F D init] =>
      destruct (chk dv du None d' F D init) as [D1|] eqn:E1; [|discriminate] end.
    destruct (test_ok D1 t); [|discriminate].
    match type of H2 with context [chk dv du (Some ?k) ?d' ?F' D1 body] =>
      destruct (chk dv du (Some k) d' F' D1 body) eqn:E2; [|discriminate] end.
    match type of H2 with context [chk dv du None ?d' F D1 step] =>
      destruct (chk dv du None d' F D1 step) eqn:E3; [|discriminate] end.
    pose proof (H _ _ _ _ _ E1). pose proof (H0 _ _ _ _ _ E3). pose proof (H1 _ _ _ _ _ E2).
    cbn [kof k_loop] in *. rewrite H3, H4, H5. auto.
  - cbn [chk] in H0. cbv zeta in H0.
    match type of H0 with (if ?x then _ else _) = _ => destruct x eqn:E; [|discriminate] end.
    apply andb_prop in E as [_ E]. exact (H _ _ _ _ E).
  - cbn [chk] in H. destruct K as [k|]; [|discriminate]. cbn [kof]. destruct (k_loop k); auto.
  - cbn [chk] in H. destruct K as [k|]; [|discriminate]. cbn [kof]. destruct (k_loop k); [reflexivity|]. cbn in H. discriminate H.
  - change (match chk dv du K d F D body with Some _ => true | None => false end && chk_secs dv du K d F D rest = true) in H1.
    apply andb_prop in H1 as [X1 X2]. destruct (chk dv du K d F D body) eqn:E; [|discriminate].
    rewrite (H _ _ _ _ _ E), (H0 _ _ _ _ X2). auto.
Qed.

Lemma suffix_wfs k ss r : suffix r ss -> wfs_secs k ss = true -> wfs_secs k r = true.
Proof. induction 1; auto. cbn. intros X. apply andb_prop in X as [_ X]; auto. Qed.

Definition outk (k : kd) (out : vout) : Prop :=
  match k with KN => out = VNorm \/ out = VRet | KS => out <> VCont | KL => True end.

Definition Outs (n : nat) : Prop :=
  (forall o c s st out st' k, vexec n o c s st = Some (out, st') -> wfs k s = true -> (k = KS -> c_ct c = false) ->
     outk k out /\ (mret true s = false -> out <> VRet)) /\
  (forall o c sv ma mb ra rb a b st out st' k, vif n o c sv ma mb ra rb a b st = Some (out, st') ->
     wfs k a = true -> wfs k b = true -> (k = KS -> c_ct c = false) ->
     outk k out /\ (mret true a = false -> mret true b = false -> out <> VRet)) /\
  (forall o c old t a b st out st' k, vif_mixed n o c old t a b st = Some (out, st') ->
     wfs k a = true -> wfs k b = true -> (k = KS -> c_ct c = false) ->
     outk k out /\ (mret true a = false -> mret true b = false -> out <> VRet)) /\
  (forall o c u coh t step body st out st', vtop n o c u coh t step body st = Some (out, st') ->
     wfs KN step = true -> wfs KL body = true ->
     (out = VNorm \/ out = VRet) /\ (mret true step = false -> mret true body = false -> out <> VRet)) /\
  (forall o c u coh t step body st out st', vbody n o c u coh t step body st = Some (out, st') ->
     wfs KN step = true -> wfs KL body = true ->
     (out = VNorm \/ out = VRet) /\ (mret true step = false -> mret true body = false -> out <> VRet)) /\
  (forall o c ss st out st' k, vrun n o c ss st = Some (out, st') -> wfs_secs k ss = true -> (k = KS -> c_ct c = false) ->
     outk k out /\ (mret_secs true ss = false -> out <> VRet)) /\
  (forall o c sv v cs ss st out st' k, vsecs n o c sv v cs ss st = Some (out, st') -> wfs_secs k ss = true ->
     (k = KS -> c_ct c = false) -> outk k out /\ (mret_secs true ss = false -> out <> VRet)).

Lemma outk_norm k : outk k VNorm.
Proof. destruct k; cbn; auto. discriminate. Qed.
Lemma outk_ret k : outk k VRet.
Proof. destruct k; cbn; auto. discriminate. Qed.
Lemma outk_nr k out : (out = VNorm \/ out = VRet) -> outk k out.
Proof. intros [-> | ->]; [apply outk_norm|apply outk_ret]. Qed.

Ltac andbs := repeat match goal with H : _ && _ = true |- _ => apply andb_prop in H as [? ?] end.
Ltac oknorm := split; [apply outk_norm|discriminate].

Lemma outs n : Outs n.
Proof.
  induction n as [|n (I1 & I2 & I3 & I4 & I5 & I6 & I7)].
  - unfold Outs. splitc; intros; discriminate.
  - unfold Outs. splitc.
    + intros o c s st out st' k0 H HW HK. rewrite vexec_eq in H.
      destruct s as [|a b|x e|u e|x e|u e|k e|coh t a b|coh body t|coh i t step body|t ss| | |e|x f us vs]; cbn [wfs] in HW;
        try (injection H as <- <-; oknorm).
      * andbs. cbn [mret]. destruct (vexec n o c a st) as [[oo s1]|] eqn:E; [|discriminate].
        destruct (I1 _ _ _ _ _ _ k0 E) as [O1 R1]; auto.
        assert (CASE : (oo <> VNorm /\ oo = out /\ s1 = st') \/ oo = VNorm).
        { destruct oo; auto; injection H as <- <-; left; split; auto; discriminate. }
        destruct CASE as [(NN & -> & ->)| -> ].
        -- split; auto. intros X. orbs. auto.
        -- destruct (I1 _ _ _ _ _ _ k0 H) as [O2 R2]; auto. split; auto. intros X; orbs; auto.
      * andbs. destruct t; cbn [mret].
        -- destruct (I1 o (push_if true c) _ _ _ _ k0 H) as [O1 R1]; auto.
           { destruct (is_true _); auto. }
           split; auto. intros X; orbs. apply R1. destruct (is_true _); auto.
        -- cbv zeta in H.
           assert (G : outk k0 out /\ (mret true a = false -> mret true b = false -> out <> VRet)).
           { repeat match type of H with (if ?x then _ else _) = _ => destruct x end;
               try (eapply I2; eauto; fail); eapply I3; eauto. }
           destruct G as [G1 G2]. split; auto. intros X; orbs; auto.
      * destruct (vbody _ _ _ _ _ _ _ _ _) as [[oo s1]|] eqn:E; [|discriminate].
        destruct (I5 _ _ _ _ _ _ _ _ _ _ E eq_refl HW) as [O R].
        assert (oo = out) by (destruct oo; injection H as <- <-; auto). subst oo.
        split; [apply outk_nr; auto|]. cbn [mret]. cbn [orb]. intros X. auto.
      * andbs. destruct (vexec _ _ _ _ _) as [[oo s1]|] eqn:E; [|discriminate].
        destruct (I1 _ _ _ _ _ _ KN E) as [O1 R1]; auto; [discriminate|]. cbn [mret]. cbn [orb].
        assert (CASE : (oo <> VNorm /\ oo = out /\ s1 = st') \/ oo = VNorm).
        { destruct oo; auto; injection H as <- <-; left; split; auto; discriminate. }
        destruct CASE as [(NN & -> & ->)| -> ].
        -- split; [apply outk_nr; auto|]. intros X; orbs; auto.
        -- destruct (vtop _ _ _ _ _ _ _ _ _) as [[oo s2]|] eqn:E2; [|discriminate].
           destruct (I4 _ _ _ _ _ _ _ _ _ _ E2) as [O R]; auto.
           assert (oo = out) by (destruct oo; injection H as <- <-; auto). subst oo.
           split; [apply outk_nr; auto|]. intros X; orbs; auto.
      * destruct t.
        -- destruct (vrun _ _ _ _ _) as [[oo s1]|] eqn:E; [|discriminate].
           destruct (I6 _ _ _ _ _ _ KS E) as [O R]; auto.
           { eapply suffix_wfs; [apply scalar_target_suffix|auto]. }
           cbn [outk] in O. cbn [mret orb].
           destruct oo; injection H as <- <-; try oknorm; [congruence|]. split; [apply outk_ret|].
           intros X. apply R. eapply suffix_mret; [apply scalar_target_suffix|exact X].
        -- destruct (vsecs _ _ _ _ _ _ _ _) as [[oo s1]|] eqn:E; [|discriminate].
           destruct (I7 _ _ _ _ _ _ _ _ _ KS E) as [O R]; auto.
           cbn [outk] in O. cbn [mret orb].
           destruct oo; injection H as <- <-; try oknorm; [congruence|]. split; [apply outk_ret|].
           intros X. apply R. exact X.
      * unfold do_break in H. destruct k0; [discriminate| |]; (split; [|intros _]).
        -- rewrite (HK eq_refl) in H. cbn [outk].
           repeat match type of H with (if ?b then _ else _) = _ => destruct b end; try discriminate;
             injection H as <- <-; try discriminate. destruct (all_lanes_done _ _ _); discriminate.
        -- repeat match type of H with (if ?b then _ else _) = _ => destruct b end; try discriminate;
             injection H as <- <-; try discriminate; destruct (all_lanes_done _ _ _); discriminate.
        -- exact I.
        -- repeat match type of H with (if ?b then _ else _) = _ => destruct b end; try discriminate;
             injection H as <- <-; try discriminate; destruct (all_lanes_done _ _ _); discriminate.
      * unfold do_continue in H. destruct k0; [discriminate|discriminate|]. split; [exact I|intros _].
        repeat match type of H with (if ?b then _ else _) = _ => destruct b end; try discriminate;
             injection H as <- <-; try discriminate; destruct (all_lanes_done _ _ _); discriminate.
      * cbn [mret]. split; [|discriminate]. unfold do_return in H. injection H as H.
        repeat match type of H with (if ?b then _ else _) = _ => destruct b end;
          injection H as <- <-; [apply outk_ret|apply outk_ret|apply outk_norm].
      * destruct (nth_error _ _); [|discriminate].
        destruct (vexec _ _ _ _ _) as [[oo s1]|] eqn:E; [|discriminate].
        destruct oo; try discriminate; injection H as <- <-; oknorm.
    + intros o c sv ma mb ra rb a b st out st' k H Ha Hb HK. cbn [vif] in H.
      assert (X : forall (q : bool) s m s1 oo s2, wfs k s = true ->
                  (if q then vexec n o (push_if false c) s (set_mask m s1) else Some (VNorm, s1)) = Some (oo, s2) ->
                  outk k oo /\ (mret true s = false -> oo <> VRet)).
      { intros [] s m s1 oo s2 Hw X; [|injection X as <- <-; oknorm].
        exact (I1 o (push_if false c) _ _ _ _ k X Hw HK). }
      destruct (if ra then vexec n o (push_if false c) a (set_mask ma st) else _) as [[oo s1]|] eqn:E; [|discriminate].
      apply X in E; auto. destruct E as [O1 R1].
      assert (CASE : (oo <> VNorm /\ oo = out /\ s1 = st') \/ oo = VNorm).
      { destruct oo; auto; injection H as <- <-; left; split; auto; discriminate. }
      destruct CASE as [(NN & -> & ->)| -> ]; [split; auto|].
      destruct (if rb then vexec n o (push_if false c) b (set_mask mb s1) else _) as [[oo s2]|] eqn:E2; [|discriminate].
      apply X in E2; auto. destruct E2 as [O2 R2].
      assert (oo = out) by (destruct oo; injection H as <- <-; auto). subst oo. split; auto.
    + intros o c old t a b st out st' k H. cbn [vif_mixed] in H. eapply I2; eauto.
    + intros o c u coh t step body st out st' H HS HB. cbn [vtop] in H. cbv zeta in *.
      repeat match type of H with (if ?x then _ else _) = _ => destruct x end;
        try (injection H as <- <-; split; [auto|discriminate]); exact (I5 _ _ _ _ _ _ _ _ _ _ H HS HB).
    + intros o c u coh t step body st out st' H HS HB. cbn [vbody] in H. cbv zeta in H.
      destruct (vexec n o _ body _) as [[oo s1]|] eqn:E; [|discriminate].
      destruct (I1 _ _ _ _ _ _ KL E HB) as [_ R]; [discriminate|].
      assert (ST : match vexec n o (set_be (full c st) c) step (restore_continued c s1) with
            | Some (VNorm, st3) => vtop n o c u coh t step body st3
            | r => r
            end = Some (out, st') -> (out = VNorm \/ out = VRet) /\ (mret true step = false -> mret true body = false -> out <> VRet)).
      { clear H. intros H. destruct (vexec n o _ step _) as [[oo2 s2]|] eqn:E2; [|discriminate].
        destruct (I1 _ _ _ _ _ _ KN E2 HS) as [O2 R2]; [discriminate|]. cbn [outk] in O2.
        destruct O2 as [-> | ->]; [exact (I4 _ _ _ _ _ _ _ _ _ _ H HS HB)|]. injection H as <- <-. auto. }
      destruct oo; auto; injection H as <- <-; (split; [auto|]); try discriminate. auto.
    + intros o c ss st out st' k H HW HK. cbn [vrun] in H. destruct ss; [injection H as <- <-; oknorm|].
      cbn [wfs_secs] in HW. andbs. cbn [mret_secs].
      destruct (vexec n o _ _ _) as [[oo s1]|] eqn:E; [|discriminate].
      destruct (I1 _ _ _ _ _ _ k E) as [O1 R1]; auto.
      assert (CASE : (oo <> VNorm /\ oo = out /\ s1 = st') \/ oo = VNorm).
      { destruct oo; auto; injection H as <- <-; left; split; auto; discriminate. }
      destruct CASE as [(NN & -> & ->)| -> ].
      * split; auto. intros X; orbs; auto.
      * destruct (I6 _ _ _ _ _ _ k H) as [O2 R2]; auto. split; auto. intros X; orbs; auto.
    + intros o c sv v cs ss st out st' k H HW HK. cbn [vsecs] in H. cbv zeta in H.
      destruct ss; [injection H as <- <-; oknorm|]. cbn [wfs_secs] in HW. andbs. cbn [mret_secs].
      destruct (check_mask _ _ && _).
      * destruct (I7 _ _ _ _ _ _ _ _ _ k H) as [O2 R2]; auto. split; auto. intros X; orbs; auto.
      * destruct (vexec n o _ _ _) as [[oo s1]|] eqn:E; [|discriminate].
        destruct (I1 _ _ _ _ _ _ k E) as [O1 R1]; auto.
        assert (CASE : (oo <> VNorm /\ oo = out /\ s1 = st') \/ oo = VNorm).
        { destruct oo; auto; injection H as <- <-; left; split; auto; discriminate. }
        destruct CASE as [(NN & -> & ->)| -> ].
        -- split; auto. intros X; orbs; auto.
        -- destruct (I7 _ _ _ _ _ _ _ _ _ k H) as [O2 R2]; auto. split; auto. intros X; orbs; auto.
Qed.

(** ** Statements that cannot switch lanes off *)

Definition same (l : lane) (a b : vst) : Prop :=
  v_mask b l = v_mask a l /\ v_brk b l = v_brk a l /\ v_cnt b l = v_cnt a l /\ v_ret b l = v_ret a l.

Lemma same_refl l a : same l a a.
Proof. repeat split. Qed.
Lemma same_trans l a b c : same l a b -> same l b c -> same l a c.
Proof. unfold same. intuition congruence. Qed.

(** A lane that is on has no break, continue or return recorded. *)
Definition bok (l : lane) (st : vst) : Prop :=
  v_mask st l = true -> v_brk st l = false /\ v_cnt st l = false /\ v_ret st l = false.

Lemma bok_same l a b : same l a b -> bok l a -> bok l b.
Proof. unfold same, bok. intros (-> & -> & -> & ->). auto. Qed.

(** A break or continue here is a plain jump. *)
Definition jok (jb : bool) (c : cx) : Prop :=
  jb = true ->
  (in_switch (c_cf c) = true -> c_swu c = true /\ ifs_all_uniform CSwitch (c_cf c) = true /\ c_ct c = false) /\
  (in_switch (c_cf c) = false -> ifs_all_uniform CLoop (c_cf c) = true).

Lemma jok_false c : jok false c.
Proof. discriminate. Qed.
Lemma jok_if jb c : jok jb c -> jok jb (push_if true c).
Proof. intros H E. exact (H E). Qed.
Lemma jok_loop jb u c : jok jb (push_loop u c).
Proof. intros E. split; [discriminate|auto]. Qed.
Lemma jok_switch jb u be c : jok jb (push_switch u true be c).
Proof. intros E. split; [auto|discriminate]. Qed.
Lemma jok_be jb be c : jok jb c -> jok jb (set_be be c).
Proof. intros H E. exact (H E). Qed.

Lemma jok_break w c st out st' : jok true c -> do_break w c st = Some (out, st') -> out = VBrk /\ st' = st.
Proof.
  intros J. destruct (J eq_refl) as [J1 J2]. unfold do_break. destruct (c_bt c); [|discriminate]. cbn [negb].
  destruct (in_switch (c_cf c)).
  - destruct (J1 eq_refl) as (-> & -> & _). intros H. injection H as <- <-. auto.
  - rewrite (J2 eq_refl). intros H. injection H as <- <-. auto.
Qed.

Lemma jok_continue w c st out st' : jok true c -> do_continue w c st = Some (out, st') -> out = VCont /\ st' = st.
Proof.
  intros J. destruct (J eq_refl) as [J1 J2]. unfold do_continue. destruct (c_ct c) eqn:E; [|discriminate]. cbn [negb].
  destruct (in_switch (c_cf c)).
  - destruct (J1 eq_refl) as (_ & _ & X). congruence.
  - rewrite (J2 eq_refl). intros H. injection H as <- <-. auto.
Qed.

Lemma esc_mret : forall s jb, esc jb s = false -> mret true s = false.
Proof.
  induction s; intros jb H; cbn [esc mret] in *; auto; try discriminate; orbs.
  - rewrite (IHs1 jb), (IHs2 jb); auto.
  - destruct t; orbs; erewrite IHs1, IHs2; eauto.
  - cbn [orb]. cbv zeta. erewrite IHs1, IHs2; eauto.
Qed.

Lemma esc_uniform : forall s jb k, has_varying_bc (negb jb) s = false -> mret true s = false -> wfs k s = true -> esc jb s = false.
Proof.
  assert (KNE : forall s jb, wfs KN s = true -> mret true s = false -> esc jb s = false).
  { induction s; intros jb H M; cbn [esc mret wfs] in *; auto; try discriminate; andbs; orbs.
    - rewrite IHs1, IHs2; auto.
    - destruct t; orbs; rewrite IHs1, IHs2; auto.
    - cbn [orb] in *; cbv zeta in *; orbs. rewrite IHs1, IHs2; auto. }
  induction s; intros jb kk H M W; cbn [esc mret wfs has_varying_bc] in *; auto; try discriminate; andbs; orbs.
  - erewrite IHs1, IHs2; eauto.
  - destruct t; orbs; erewrite IHs1, IHs2; eauto.
  - cbn [orb] in *; cbv zeta in *; orbs. rewrite !KNE; auto.
Qed.

Definition Esc (l : lane) (n : nat) : Prop :=
  (forall o c s st out st' jb k, vexec n o c s st = Some (out, st') ->
     l < o_width o -> c_fm c l = true -> esc jb s = false -> jok jb c -> wfs k s = true -> (k = KS -> c_ct c = false) ->
     bok l st -> same l st st' /\ (jb = false -> out = VNorm)) /\
  (forall o c sv ma mb ra rb a b st out st' k, vif n o c sv ma mb ra rb a b st = Some (out, st') ->
     l < o_width o -> c_fm c l = true -> esc false a = false -> esc false b = false ->
     wfs k a = true -> wfs k b = true -> (k = KS -> c_ct c = false) ->
     sv l = v_mask st l -> (ma l = true -> v_mask st l = true) -> (mb l = true -> v_mask st l = true) ->
     bok l st -> same l st st' /\ out = VNorm) /\
  (forall o c old t a b st out st' k, vif_mixed n o c old t a b st = Some (out, st') ->
     l < o_width o -> c_fm c l = true -> esc false a = false -> esc false b = false ->
     wfs k a = true -> wfs k b = true -> (k = KS -> c_ct c = false) ->
     old l = v_mask st l -> bok l st -> same l st st' /\ out = VNorm) /\
  (forall o c coh t step body st out st', vtop n o c true coh t step body st = Some (out, st') ->
     l < o_width o -> c_fm c l = true -> c_bl c = false -> c_cl c = false -> jok true c ->
     esc true step = false -> esc true body = false -> wfs KN step = true -> wfs KL body = true ->
     bok l st -> same l st st') /\
  (forall o c coh t step body st out st', vbody n o c true coh t step body st = Some (out, st') ->
     l < o_width o -> c_fm c l = true -> c_bl c = false -> c_cl c = false -> jok true c ->
     esc true step = false -> esc true body = false -> wfs KN step = true -> wfs KL body = true ->
     bok l st -> same l st st') /\
  (forall o c ss st out st', vrun n o c ss st = Some (out, st') ->
     l < o_width o -> c_fm c l = true -> has_varying_bc_secs false ss = false -> mret_secs true ss = false ->
     jok true c -> wfs_secs KS ss = true -> c_ct c = false ->
     bok l st -> same l st st').

Lemma suffix_bc u ss r : suffix r ss -> has_varying_bc_secs u ss = false -> has_varying_bc_secs u r = false.
Proof. induction 1; auto. cbn. intros X. apply orb_false_elim in X as [_ X]; auto. Qed.

(** The end of a loop or switch that was left without a return. *)
Lemma same_end_loop (u : bool) l st s1 :
  bok l st -> v_ret s1 l = v_ret st l -> (u = true -> v_mask s1 l = v_mask st l) -> same l st (end_loop u st s1).
Proof.
  intros B R M. unfold same, end_loop, restore_given_returns. destruct u; cbn.
  - auto.
  - unfold mand, mnot. rewrite R. split; auto. destruct (v_mask st l) eqn:E; auto. destruct (B E) as (_ & _ & ->). auto.
Qed.

Lemma bok_bc l st : bok l st -> bok l (set_bc all_off all_off st).
Proof. unfold bok. cbn. intros B X. destruct (B X) as (_ & _ & Y). auto. Qed.

Lemma esc_same l n : Esc l n.
Proof.
  induction n as [|n (I1 & I2 & I3 & I4 & I5 & I6)].
  - unfold Esc. splitc; intros; discriminate.
  - unfold Esc. splitc.
    + intros o c s st out st' jb k0 H W F HE J HW HK B. pose proof H as H0. rewrite vexec_eq in H.
      destruct s as [|a b|x e|u e|x e|u e|k e|coh t a b|coh body t|coh i t step body|t ss| | |e|x f us vs]; cbn [wfs] in HW;
        cbn [esc] in HE; try solve [injection H as <- <-; split; [repeat split|auto]].
      * andbs. orbs. destruct (vexec n o c a st) as [[oo s1]|] eqn:E; [|discriminate].
        destruct (I1 _ _ _ _ _ _ jb k0 E) as [O1 R1]; auto.
        assert (CASE : (oo <> VNorm /\ oo = out /\ s1 = st') \/ oo = VNorm).
        { destruct oo; auto; injection H as <- <-; left; split; auto; discriminate. }
        destruct CASE as [(NN & -> & ->)| -> ]; [auto|].
        destruct (I1 _ _ _ _ _ _ jb k0 H) as [O2 R2]; auto; [eapply bok_same; eauto|].
        split; auto. eapply same_trans; eauto.
      * injection H as <- <-. split; auto. destruct (store_same c st x (fun l => xeval st l e)) as (Z1 & Z2 & Z3 & Z4 & _).
        unfold same. rewrite Z1, Z2, Z3, Z4. auto.
      * andbs. destruct t; orbs.
        -- eapply (I1 o (push_if true c) _ _ _ _ jb k0 H); auto; destruct (is_true _); auto.
        -- cbv zeta in H.
           assert (G : same l st st' /\ out = VNorm); [|split; [apply G|intros; apply G]].
           destruct coh.
           ++ destruct (m_all (o_width o) (full c st)) eqn:EA; [|eapply I3; eauto].
              rewrite m_all_true in EA. specialize (EA l W). unfold full, mand in EA. apply andb_prop in EA as [EA _].
              repeat match type of H with (if ?x then _ else _) = _ => destruct x end;
                (eapply (I2 _ _ _ _ _ _ _ _ _ _ _ _ k0 H); auto).
           ++ destruct (predicated o a b); [|eapply I3; eauto].
              eapply (I2 _ _ _ _ _ _ _ _ _ _ _ _ k0 H); auto; unfold mand; intros X; apply andb_prop in X; tauto.
      * assert (OU : out = VNorm).
        { destruct (proj1 (outs (S n)) _ _ _ _ _ _ KN H0) as [[X|X] R]; auto; [discriminate|].
          exfalso. apply R; auto. }
        subst out. destruct (vbody _ _ _ _ _ _ _ _ _) as [[oo s1]|] eqn:E; [|discriminate].
        assert (R : v_ret s1 = v_ret st).
        { pose proof (noret n) as (_ & _ & _ & _ & N5 & _). eapply (N5 _ _ _ _ _ _ _ _ _ _ true E); auto. discriminate. }
        destruct oo; try discriminate. injection H as <-. split; auto. apply same_end_loop; auto; [rewrite R; auto|].
        intros U. rewrite U in E.
        assert (S : same l (set_bc all_off all_off st) s1); [|apply S].
        eapply (I5 _ _ _ _ _ _ _ _ _ E); auto; try (apply jok_loop).
        -- eapply (esc_uniform body true KL); auto. unfold uniform_cf in U. destruct t; [|discriminate].
           apply negb_true_iff in U. exact U.
        -- apply bok_bc; auto.
      * andbs. orbs. assert (OU : out = VNorm).
        { destruct (proj1 (outs (S n)) _ _ _ _ _ _ KN H0) as [[X|X] R]; auto.
          - cbn [wfs]. rewrite H1, H2, H3; auto.
          - discriminate.
          - exfalso. apply R; auto. cbn [mret orb]. cbv zeta.
            rewrite (esc_mret i true), (esc_mret step true); auto. }
        subst out. destruct (vexec _ _ _ _ _) as [[oi si]|] eqn:Ei; [|discriminate].
        assert (oi = VNorm) by (destruct oi; auto; discriminate H). subst oi.
        destruct (vtop _ _ _ _ _ _ _ _ _) as [[oo s1]|] eqn:E; [|discriminate].
        assert (oo = VNorm) by (destruct oo; auto; discriminate H). subst oo. injection H as <-.
        assert (R : v_ret s1 = v_ret st).
        { pose proof (noret n) as (N1 & _ & _ & N4 & _). etransitivity.
          - eapply (N4 _ _ _ _ _ _ _ _ _ _ true E); auto; [eapply esc_mret; eauto|discriminate].
          - apply (N1 _ _ _ _ _ _ true Ei); auto; [eapply esc_mret; eauto|discriminate]. }
        split; auto. apply same_end_loop; auto; [rewrite R; auto|].
        intros U. rewrite U in E, Ei.
        assert (Si : same l (set_bc all_off all_off st) si).
        { eapply (I1 _ _ _ _ _ _ true KN Ei); auto; try discriminate; [apply jok_loop|apply bok_bc; auto]. }
        assert (S : same l si s1).
        { eapply (I4 _ _ _ _ _ _ _ _ _ E); auto; try (apply jok_loop).
          - eapply (esc_uniform body true KL); auto. unfold uniform_cf in U. destruct t; [|discriminate].
            apply negb_true_iff in U. exact U.
          - eapply bok_same; [exact Si|]. apply bok_bc; auto. }
        exact (proj1 (same_trans _ _ _ _ Si S)).
      * assert (OU : out = VNorm).
        { destruct (proj1 (outs (S n)) _ _ _ _ _ _ KN H0) as [[X|X] R]; auto; [discriminate|].
          exfalso. apply R; auto. }
        subst out. split; auto. destruct t as [e|e].
        -- destruct (vrun _ _ _ _ _) as [[oo s1]|] eqn:E; [|discriminate].
           assert (R : v_ret s1 = v_ret st).
           { pose proof (noret n) as (_ & _ & _ & _ & _ & N6 & _). eapply (N6 _ _ _ _ _ _ true E); [|discriminate].
             eapply suffix_mret; [apply scalar_target_suffix|auto]. }
           assert (EE : st' = end_loop (uniform_cf_switch (TU e) ss) st s1) by (destruct oo; try discriminate; injection H as <-; auto).
           subst st'. apply same_end_loop; auto; [rewrite R; auto|].
           intros U. rewrite U in E.
           assert (S : same l (set_bc all_off all_off st) s1); [|apply S].
           eapply (I6 _ _ _ _ _ _ E); auto.
           ++ eapply suffix_bc; [apply scalar_target_suffix|]. cbn in U. apply negb_true_iff in U. exact U.
           ++ eapply suffix_mret; [apply scalar_target_suffix|auto].
           ++ apply jok_switch.
           ++ eapply suffix_wfs; [apply scalar_target_suffix|auto].
           ++ apply bok_bc; auto.
        -- destruct (vsecs _ _ _ _ _ _ _ _) as [[oo s1]|] eqn:E; [|discriminate].
           assert (R : v_ret s1 = v_ret st).
           { pose proof (noret n) as (_ & _ & _ & _ & _ & _ & N7). apply (N7 _ _ _ _ _ _ _ _ _ E); auto. }
           assert (EE : st' = end_loop false st s1) by (destruct oo; try discriminate; injection H as <-; auto).
           subst st'. apply same_end_loop; auto; [rewrite R; auto|discriminate].
      * destruct jb; [|discriminate]. destruct (jok_break _ _ _ _ _ J H) as [-> ->]. split; [apply same_refl|discriminate].
      * destruct jb; [|discriminate]. destruct (jok_continue _ _ _ _ _ J H) as [-> ->]. split; [apply same_refl|discriminate].
      * discriminate.
      * destruct (nth_error _ _); [|discriminate].
        destruct (vexec n _ _ _ _) as [[oo s1]|] eqn:E; [|discriminate].
        destruct oo; try discriminate; injection H as <- <-; (split; [|auto]);
        match goal with |- same _ _ (store c ?s x ?f) => destruct (store_same c s x f) as (Z1 & Z2 & Z3 & Z4 & _) end;
        unfold same; rewrite Z1, Z2, Z3, Z4; cbn; auto.
    + intros o c sv ma mb ra rb a b st out st' k H W F Ea Eb Wa Wb HK HS HA HB B. cbn [vif] in H.
      assert (X : forall (q : bool) s m s1 oo s2, esc false s = false -> wfs k s = true -> (m l = true -> v_mask st l = true) ->
                  v_brk s1 l = v_brk st l -> v_cnt s1 l = v_cnt st l -> v_ret s1 l = v_ret st l ->
                  (if q then vexec n o (push_if false c) s (set_mask m s1) else Some (VNorm, s1)) = Some (oo, s2) ->
                  oo = VNorm /\ v_brk s2 l = v_brk st l /\ v_cnt s2 l = v_cnt st l /\ v_ret s2 l = v_ret st l).
      { intros [] s m s1 oo s2 Es Ws Hm Y1 Y2 Y3 X; [|injection X as <- <-; auto].
        destruct (I1 o (push_if false c) _ _ _ _ false k X W F Es (jok_false _) Ws HK) as [S O].
        - unfold bok. cbn. intros M. rewrite Y1, Y2, Y3. apply B. auto.
        - destruct S as (S1 & S2 & S3 & S4). cbn in S2, S3, S4. rewrite S2, S3, S4. auto. }
      destruct (if ra then vexec n o (push_if false c) a (set_mask ma st) else _) as [[oo s1]|] eqn:E; [|discriminate].
      apply X in E; auto. destruct E as (-> & Y1 & Y2 & Y3).
      destruct (if rb then vexec n o (push_if false c) b (set_mask mb s1) else _) as [[oo s2]|] eqn:E2; [|discriminate].
      apply X in E2; auto. destruct E2 as (-> & X1 & X2 & X3). injection H as <- <-. split; auto.
      unfold same, end_if, restore_given_returns. destruct (c_cl c || c_bl c); cbn; unfold mand, mnot, mor.
      * split; auto. rewrite HS, X3. destruct (v_mask st l) eqn:M; auto. destruct (B M) as (Q1 & Q2 & Q3).
        rewrite Q3. destruct (c_cl c), (c_bl c); unfold all_off; rewrite ?X1, ?X2, ?Q1, ?Q2; auto.
      * split; auto. rewrite HS, X3. destruct (v_mask st l) eqn:M; auto. destruct (B M) as (Q1 & Q2 & Q3).
        rewrite Q3. auto.
    + intros o c old t a b st out st' k H W F Ea Eb Wa Wb HK HO B. cbn [vif_mixed] in H.
      eapply (I2 _ _ _ _ _ _ _ _ _ _ _ _ k H); auto; unfold mand; intros X; apply andb_prop in X as [X _]; congruence.
    + intros o c coh t step body st out st' H W F BL CL J Es Eb Ws Wb B. cbn [vtop] in H. cbv zeta in *.
      destruct (teval st t 0); [|injection H as <- <-; apply same_refl]. eapply (I5 _ _ _ _ _ _ _ _ _ H); auto.
    + intros o c coh t step body st out st' H W F BL CL J Es Eb Ws Wb B. cbn [vbody] in H. cbv zeta in H.
      rewrite andb_false_r in H. cbn [andb] in H.
      destruct (vexec n o _ body _) as [[oo s1]|] eqn:E; [|discriminate].
      destruct (I1 o (set_be (full c st) c) _ _ _ _ true KL E) as [S1 _]; auto; [discriminate|].
      assert (ST : match vexec n o (set_be (full c st) c) step (restore_continued c s1) with
            | Some (VNorm, st3) => vtop n o c true coh t step body st3
            | r => r
            end = Some (out, st') -> same l st st').
      { clear H. intros H. assert (RC : restore_continued c s1 = s1) by (unfold restore_continued; rewrite BL, CL; auto).
        rewrite RC in H. destruct (vexec n o _ step _) as [[oo2 s2]|] eqn:E2; [|discriminate].
        destruct (I1 o (set_be (full c st) c) _ _ _ _ true KN E2) as [S2 _]; auto; [discriminate|eapply bok_same; eauto|].
        pose proof (same_trans _ _ _ _ S1 S2) as S3.
        destruct oo2; try (injection H as <- <-; exact S3).
        eapply same_trans; [exact S3|]. eapply (I4 _ _ _ _ _ _ _ _ _ H); auto. eapply bok_same; eauto. }
      destruct oo; auto; injection H as <- <-; exact S1.
    + intros o c ss st out st' H W F HB HM J HW HC B. cbn [vrun] in H. destruct ss; [injection H as <- <-; apply same_refl|].
      cbn [has_varying_bc_secs mret_secs wfs_secs] in HB, HM, HW. andbs. orbs.
      destruct (vexec n o _ _ _) as [[oo s1]|] eqn:E; [|discriminate].
      destruct (I1 o c _ _ _ _ true KS E) as [S1 _]; auto.
      { eapply (esc_uniform body true KS); auto. }
      destruct oo; try (injection H as <- <-; exact S1).
      eapply same_trans; [exact S1|]. eapply (I6 _ _ _ _ _ _ H); auto. eapply bok_same; eauto.
Qed.

(** ** Directly in the body of a loop that started with a lane on *)

(** Some lane of the loop has neither broken out, continued nor returned. *)
Definition Jl (w : nat) (c : cx) (st : vst) : Prop :=
  exists l, l < w /\ c_fm c l = true /\ c_be c l = true /\ v_ret st l = false /\ v_brk st l = false /\
    (c_cl c = true -> v_cnt st l = false).

(** Only lanes of the loop are on, have broken out or continued. *)
Definition Ql (w : nat) (c : cx) (st : vst) : Prop :=
  forall l, l < w -> c_fm c l = true ->
    v_ret st l = false /\ (v_mask st l = true \/ v_brk st l = true \/ v_cnt st l = true -> c_be c l = true).

Lemma Ql_exec n o c s st out st' :
  vexec n o c s st = Some (out, st') -> mret true s = false -> Ql (o_width o) c st -> Ql (o_width o) c st'.
Proof.
  intros H M Q l W F. destruct (Q l W F) as [R B].
  destruct (vexec_dec _ _ _ _ _ _ _ _ W F H) as (D1 & D2 & D3).
  split.
  - erewrite (proj1 (noret n)); eauto. discriminate.
  - intros [X|[X|X]]; [apply D1 in X|apply D2 in X|apply D3 in X]; tauto.
Qed.

Lemma not_done w c st : c_bl c = true -> (forall l, l < w -> c_be c l = true -> c_fm c l = true) ->
  Ql w c st -> all_lanes_done w c st = false -> Jl w c st.
Proof.
  intros BL BF Q. unfold all_lanes_done. rewrite BL. cbn [negb]. intros H.
  assert (X : exists l, l < w /\ mand (if c_cl c then mor (mor (v_ret st) (v_brk st)) (v_cnt st) else mor (v_ret st) (v_brk st)) (c_fm c) l <> c_be c l).
  { unfold m_equal in H. clear - H. 
    assert (Y : forall L, (forall l, In l L -> l < w) -> forallb (fun l => Bool.eqb
        (mand (if c_cl c then mor (mor (v_ret st) (v_brk st)) (v_cnt st) else mor (v_ret st) (v_brk st)) (c_fm c) l) (c_be c l)) L = false ->
        exists l, l < w /\ mand (if c_cl c then mor (mor (v_ret st) (v_brk st)) (v_cnt st) else mor (v_ret st) (v_brk st)) (c_fm c) l <> c_be c l).
    { induction L; cbn; [discriminate|]. intros HL E. destruct (Bool.eqb _ _) eqn:Q in E.
      - apply IHL; auto.
      - exists a. split; auto. apply eqb_false_iff in Q. exact Q. }
    eapply Y; [|exact H]. intros l Hl. apply in_seq in Hl. lia. }
  destruct X as (l & W & N). exists l. split; auto.
  destruct (c_be c l) eqn:EB.
  - pose proof (BF l W EB) as F. split; auto. split; auto. destruct (Q l W F) as [R _]. split; auto.
    unfold mand in N. rewrite F, andb_true_r in N. apply not_true_is_false in N.
    destruct (c_cl c); unfold mor in N; orbs; auto. split; auto. discriminate.
  - exfalso. destruct (c_fm c l) eqn:F; unfold mand in N; rewrite F in N; [|rewrite andb_false_r in N; auto].
    rewrite andb_true_r in N. destruct (Q l W F) as [R B]. rewrite EB in B. destruct (c_cl c); unfold mor in N; rewrite R in N;
    destruct (v_brk st l), (v_cnt st l); cbn in N; try congruence; assert (X : false = true) by (apply B; auto); discriminate.
Qed.

Definition Jk (n : nat) : Prop :=
  (forall o c s st st', vexec n o c s st = Some (VNorm, st') ->
     c_bl c = true -> (forall l, l < o_width o -> c_be c l = true -> c_fm c l = true) -> mret true s = false ->
     Ql (o_width o) c st -> Jl (o_width o) c st -> Jl (o_width o) c st') /\
  (forall o c sv ma mb ra rb a b st st', vif n o c sv ma mb ra rb a b st = Some (VNorm, st') ->
     c_bl c = true -> (forall l, l < o_width o -> c_be c l = true -> c_fm c l = true) ->
     mret true a = false -> mret true b = false ->
     (forall l, l < o_width o -> c_fm c l = true -> ma l = true \/ mb l = true -> c_be c l = true) ->
     Ql (o_width o) c st -> Jl (o_width o) c st -> Jl (o_width o) c st') /\
  (forall o c old t a b st st', vif_mixed n o c old t a b st = Some (VNorm, st') ->
     c_bl c = true -> (forall l, l < o_width o -> c_be c l = true -> c_fm c l = true) ->
     mret true a = false -> mret true b = false ->
     (forall l, l < o_width o -> c_fm c l = true -> old l = true -> c_be c l = true) ->
     Ql (o_width o) c st -> Jl (o_width o) c st -> Jl (o_width o) c st').

Lemma Jl_eq w c a b : (forall l, l < w -> c_fm c l = true -> v_ret b l = v_ret a l /\ v_brk b l = v_brk a l /\ v_cnt b l = v_cnt a l) ->
  Jl w c a -> Jl w c b.
Proof.
  intros H (l & W & F & B & R & K & C). exists l. destruct (H l W F) as (-> & -> & ->). auto 10.
Qed.

Lemma Jl_keep n : Jk n.
Proof.
  induction n as [|n (I1 & I2 & I3)].
  - unfold Jk. splitc; intros; discriminate.
  - unfold Jk. splitc.
    + intros o c s st st' H BL BF M Q J. pose proof H as H0. rewrite vexec_eq in H.
      assert (LOOP : forall u s1, st' = end_loop u st s1 -> Jl (o_width o) c st').
      { intros u s1 E. eapply Jl_eq; [|exact J]. intros l W F. split; [|subst st'; destruct u; auto].
        erewrite (proj1 (noret (S n))); eauto. discriminate. }
      destruct s as [|a b|x e|u e|x e|u e|k e|coh t a b|coh body t|coh i t step body|t ss| | |e|x f us vs];
        cbn [mret] in M; try solve [injection H as <-; exact J].
      * orbs. destruct (vexec n o c a st) as [[oo s1]|] eqn:E; [|discriminate].
        destruct oo; try discriminate. eapply I1; [exact H| | | | |eapply I1; eauto]; auto.
        eapply Ql_exec; eauto.
      * injection H as <-. destruct (store_same c st x (fun l => xeval st l e)) as (Z1 & Z2 & Z3 & Z4 & _).
        eapply Jl_eq; [|exact J]. rewrite Z2, Z3, Z4. auto.
      * destruct t; orbs.
        -- eapply (I1 o (push_if true c) _ _ _ H); auto. destruct (is_true _); auto.
        -- cbv zeta in H.
           assert (OB : forall l, l < o_width o -> c_fm c l = true -> v_mask st l = true -> c_be c l = true).
           { intros l W F X. apply (Q l W F). auto. }
           destruct coh.
           ++ destruct (m_all (o_width o) (full c st)) eqn:EA; [|eapply I3; eauto].
              rewrite m_all_true in EA.
              assert (OB2 : forall l, l < o_width o -> c_be c l = true).
              { intros l W. specialize (EA l W). unfold full, mand in EA. apply andb_prop in EA as [EA F]. auto. }
              repeat match type of H with (if ?x then _ else _) = _ => destruct x end; (eapply (I2 _ _ _ _ _ _ _ _ _ _ _ H); auto).
           ++ destruct (predicated o a b); [|eapply I3; eauto].
              eapply (I2 _ _ _ _ _ _ _ _ _ _ _ H); auto. unfold mand. intros l W F [X|X]; apply andb_prop in X as [X _]; auto.
      * destruct (vbody _ _ _ _ _ _ _ _ _) as [[oo s1]|] eqn:E; [|discriminate]. destruct oo; try discriminate.
        injection H as H. eapply LOOP; eauto.
      * destruct (vexec _ _ _ _ _) as [[oi si]|] eqn:Ei; [|discriminate]. destruct oi; try discriminate.
        destruct (vtop _ _ _ _ _ _ _ _ _) as [[oo s1]|] eqn:E; [|discriminate]. destruct oo; try discriminate.
        injection H as H. eapply LOOP; eauto.
      * destruct t as [e|e].
        -- destruct (vrun _ _ _ _ _) as [[oo s1]|] eqn:E; [|discriminate]. destruct oo; try discriminate; injection H as H; eapply LOOP; eauto.
        -- destruct (vsecs _ _ _ _ _ _ _ _) as [[oo s1]|] eqn:E; [|discriminate]. destruct oo; try discriminate; injection H as H; eapply LOOP; eauto.
      * assert (Q' : Ql (o_width o) c st').
        { eapply Ql_exec; eauto. }
        unfold do_break in H. repeat match type of H with (if ?x then _ else _) = _ => destruct x end; try discriminate.
        -- destruct (all_lanes_done _ _ _) eqn:E in H; try discriminate. injection H as <-. apply not_done; auto.
        -- destruct (all_lanes_done _ _ _) eqn:E in H; try discriminate. injection H as <-. apply not_done; auto.
      * assert (Q' : Ql (o_width o) c st').
        { eapply Ql_exec; eauto. }
        unfold do_continue in H. repeat match type of H with (if ?x then _ else _) = _ => destruct x end; try discriminate.
        destruct (all_lanes_done _ _ _) eqn:E in H; try discriminate. injection H as <-. apply not_done; auto.
      * discriminate.
      * destruct (nth_error _ _); [|discriminate].
        destruct (vexec n _ _ _ _) as [[oo s1]|] eqn:E; [|discriminate].
        destruct oo; try discriminate; injection H as <-;
        match goal with |- Jl _ _ (store c ?s x ?f) => destruct (store_same c s x f) as (Z1 & Z2 & Z3 & Z4 & _) end;
        (eapply Jl_eq; [|exact J]); rewrite Z2, Z3, Z4; auto.
    + intros o c sv ma mb ra rb a b st st' H BL BF Ma Mb HM Q J. cbn [vif] in H.
      assert (QM : forall (m : mask) s, (forall l, l < o_width o -> c_fm c l = true -> m l = true -> c_be c l = true) ->
                     Ql (o_width o) c s -> Ql (o_width o) c (set_mask m s)).
      { intros m s X Y l W F. destruct (Y l W F) as [R B]. split; auto. cbn. intros [Z|[Z|Z]]; auto. }
      destruct (if ra then vexec n o (push_if false c) a (set_mask ma st) else _) as [[oo s1]|] eqn:E; [|discriminate].
      destruct oo; try discriminate.
      assert (X1 : Ql (o_width o) c s1 /\ Jl (o_width o) c s1).
      { destruct ra; [|injection E as <-; auto].
        split; [eapply (Ql_exec n o (push_if false c)); eauto|eapply (I1 o (push_if false c) _ _ _ E); auto];
        try (apply QM; auto); try (intros; apply (HM l); auto). }
      destruct X1 as [Q1 J1].
      destruct (if rb then vexec n o (push_if false c) b (set_mask mb s1) else _) as [[oo s2]|] eqn:E2; [|discriminate].
      destruct oo; try discriminate. injection H as <-.
      assert (J2 : Jl (o_width o) c s2).
      { destruct rb; [|injection E2 as <-; auto].
        eapply (I1 o (push_if false c) _ _ _ E2); auto. apply QM; auto. }
      eapply Jl_eq; [|exact J2]. unfold end_if, restore_given_returns. intros l W F. destruct (c_cl c || c_bl c); cbn; auto.
    + intros o c old t a b st st' H BL BF Ma Mb HM Q J. cbn [vif_mixed] in H.
      eapply (I2 _ _ _ _ _ _ _ _ _ _ _ H); auto. unfold mand. intros l W F [X|X]; apply andb_prop in X as [X _]; auto.
Qed.
