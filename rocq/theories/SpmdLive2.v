(** Lanes are only switched off, except inside loops and switches. *)
From Coq Require Import ZArith List Bool Arith Lia.
From Verif Require Import Bits SpmdModel SpmdSpec SpmdRel SpmdGuard SpmdLive.
Import ListNotations.

Definition dec (l : lane) (st st' : vst) : Prop :=
  (v_mask st' l = true -> v_mask st l = true) /\
  (v_brk st' l = true -> v_brk st l = true \/ v_mask st l = true) /\
  (v_cnt st' l = true -> v_cnt st l = true \/ v_mask st l = true).

(** In a loop continued lanes come back; [x] says whether the lane may come back anyway. *)
Definition decl (x : bool) (l : lane) (st st' : vst) : Prop :=
  (v_mask st' l = true -> v_mask st l = true \/ v_cnt st l = true \/ x = true) /\
  (v_brk st' l = true -> v_brk st l = true \/ v_mask st l = true \/ v_cnt st l = true \/ x = true) /\
  (v_cnt st' l = true -> v_cnt st l = true \/ v_mask st l = true \/ x = true).

Lemma dec_refl l st : dec l st st.
Proof. unfold dec; auto. Qed.
Lemma dec_trans l a b c : dec l a b -> dec l b c -> dec l a c.
Proof. unfold dec. intuition. Qed.
Lemma decl_refl x l st : decl x l st st.
Proof. unfold decl; auto 6. Qed.
Lemma dec_decl x l a b : dec l a b -> decl x l a b.
Proof. unfold dec, decl. intuition. Qed.
Lemma decl_trans x l a b c : decl x l a b -> decl x l b c -> decl x l a c.
Proof. unfold decl. intuition. Qed.

Definition Dec (l : lane) (n : nat) : Prop :=
  (forall o c s st out st', l < o_width o -> c_fm c l = true -> vexec n o c s st = Some (out, st') -> dec l st st') /\
  (forall o c sv ma mb ra rb a b st out st', l < o_width o -> c_fm c l = true ->
     (sv l = true -> v_mask st l = true) -> (ma l = true -> v_mask st l = true) -> (mb l = true -> v_mask st l = true) ->
     vif n o c sv ma mb ra rb a b st = Some (out, st') -> dec l st st') /\
  (forall o c old t a b st out st', l < o_width o -> c_fm c l = true -> (old l = true -> v_mask st l = true) ->
     vif_mixed n o c old t a b st = Some (out, st') -> dec l st st') /\
  (forall o c u coh t step body st out st', l < o_width o -> c_fm c l = true ->
     vtop n o c u coh t step body st = Some (out, st') -> decl false l st st') /\
  (forall o c u coh t step body st out st', l < o_width o -> c_fm c l = true ->
     vbody n o c u coh t step body st = Some (out, st') -> decl false l st st') /\
  (forall o c ss st out st', l < o_width o -> c_fm c l = true -> vrun n o c ss st = Some (out, st') -> dec l st st') /\
  (forall o c sv v cs ss st out st', l < o_width o -> c_fm c l = true -> vsecs n o c sv v cs ss st = Some (out, st') ->
     decl (sv l) l st st').

Lemma dec_break w c st out st' l : do_break w c st = Some (out, st') -> dec l st st'.
Proof.
  unfold do_break. repeat match goal with |- (if ?b then _ else _) = _ -> _ => destruct b end;
    intros H; try discriminate; injection H as <- <-; try apply dec_refl; unfold dec; cbn; unfold mor, all_off;
    split; try discriminate; split; auto; intros X; apply orb_prop in X; tauto.
Qed.

Lemma dec_continue w c st out st' l : do_continue w c st = Some (out, st') -> dec l st st'.
Proof.
  unfold do_continue. repeat match goal with |- (if ?b then _ else _) = _ -> _ => destruct b end;
    intros H; try discriminate; injection H as <- <-; try apply dec_refl; unfold dec; cbn; unfold mor, all_off;
    split; try discriminate; split; auto; intros X; apply orb_prop in X; tauto.
Qed.

Lemma dec_end_loop (u : bool) l s0 s : decl false l (set_bc all_off all_off s0) s -> dec l s0 (end_loop u s0 s).
Proof.
  unfold decl, dec, end_loop, restore_given_returns, all_off. intros (H1 & H2 & H3). destruct u; cbn in *.
  - split; [|auto]. intros X. destruct (H1 X) as [Y|[Y|Y]]; congruence.
  - split; [|auto]. unfold mand. intros X. apply andb_prop in X. tauto.
Qed.

Lemma decl_loop l s0 s : decl false l (set_bc all_off all_off s0) s -> dec l s0 s.
Proof.
  unfold decl, dec, all_off. cbn. intros (H1 & H2 & H3). split; [|split]; intros X.
  - destruct (H1 X) as [Y|[Y|Y]]; congruence.
  - destruct (H2 X) as [Y|[Y|[Y|Y]]]; try congruence; auto.
  - destruct (H3 X) as [Y|[Y|Y]]; try congruence; auto.
Qed.

Lemma decl_switch (m : mask) l s0 s :
  (m l = true -> v_mask s0 l = true) ->
  decl (m l) l (set_mask all_off (set_bc all_off all_off s0)) s -> dec l s0 s.
Proof.
  unfold decl, dec, all_off. cbn. intros Hm (H1 & H2 & H3). split; [|split]; intros X.
  - destruct (H1 X) as [Y|[Y|Y]]; try congruence; auto.
  - destruct (H2 X) as [Y|[Y|[Y|Y]]]; try congruence; auto.
  - destruct (H3 X) as [Y|[Y|Y]]; try congruence; auto.
Qed.

Lemma dec_end_if c sv st s l : (sv l = true -> v_mask st l = true) -> dec l st s -> dec l st (end_if c sv s).
Proof.
  intros Hs (H1 & H2 & H3). unfold dec, end_if, restore_given_returns.
  destruct (c_cl c || c_bl c); cbn; split; auto; unfold mand; intros X;
    repeat (apply andb_prop in X as [X _]); auto.
Qed.

Lemma decl_restore c st : decl false c st st -> forall cc, decl false c st (restore_continued cc st).
Proof.
  intros _ cc. unfold decl, restore_continued. destruct (c_cl cc), (c_bl cc); cbn; unfold mor, all_off;
    repeat split; auto; try discriminate; intros X; apply orb_prop in X; tauto.
Qed.

Lemma dec_lanes l n : Dec l n.
Proof.
  induction n as [|n (I1 & I2 & I3 & I4 & I5 & I6 & I7)].
  - unfold Dec. splitc; intros; discriminate.
  - unfold Dec. splitc.
    + intros o c s st out st' W F H. rewrite vexec_eq in H.
      destruct s as [|a b|x e|u e|x e|u e|k e|coh t a b|coh body t|coh i t step body|t ss| | |e|x f us vs];
        try (injection H as <- <-; first [apply dec_refl|split; [|split]; cbn; auto; fail]).
      * destruct (vexec n o c a st) as [[[] s1]|] eqn:E; try discriminate;
          try (injection H as <- <-; eapply I1; eauto; fail).
        eapply dec_trans; eapply I1; eauto.
      * injection H as <- <-. destruct (store_same c st x (fun l => xeval st l e)) as (Z1 & Z2 & Z3 & Z4 & _).
        unfold dec. rewrite Z1, Z3, Z4. auto.
      * destruct t.
        -- exact (I1 o (push_if true c) _ _ _ _ W F H).
        -- cbv zeta in H.
           assert (MIX : vif_mixed n o c (v_mask st) (fun l => is_true (xeval st l e)) a b st = Some (out, st') -> dec l st st').
           { intros X. eapply I3; eauto. }
           destruct coh.
           ++ destruct (m_all (o_width o) (full c st)) eqn:EA; [|auto].
              rewrite m_all_true in EA. specialize (EA l W). unfold full, mand in EA. apply andb_prop in EA as [EA _].
              repeat match type of H with (if ?x then _ else _) = _ => destruct x end; (eapply I2; [exact W|exact F|auto|auto|auto|exact H]).
           ++ destruct (predicated o a b); [|auto].
              eapply I2; [exact W|exact F| | | |exact H]; auto; unfold mand; intros X; apply andb_prop in X; tauto.
      * destruct (vbody _ _ _ _ _ _ _ _ _) as [[oo s1]|] eqn:E; [|discriminate].
        pose proof (I5 o (push_loop (uniform_cf t body) c) _ _ _ _ _ _ _ _ W F E) as X.
        destruct oo; injection H as <- <-; try (apply decl_loop; exact X). apply dec_end_loop; exact X.
      * destruct (vexec _ _ _ _ _) as [[oo s1]|] eqn:E; [|discriminate].
        pose proof (I1 o (push_loop (uniform_cf t body) c) _ _ _ _ W F E) as X. apply (dec_decl false) in X.
        destruct oo; try (injection H as <- <-; apply decl_loop; exact X).
        destruct (vtop _ _ _ _ _ _ _ _ _) as [[oo s2]|] eqn:E2; [|discriminate].
        pose proof (I4 o (push_loop (uniform_cf t body) c) _ _ _ _ _ _ _ _ W F E2) as X2.
        pose proof (decl_trans _ _ _ _ _ X X2) as X3.
        destruct oo; injection H as <- <-; try (apply decl_loop; exact X3). apply dec_end_loop; exact X3.
      * destruct t.
        -- destruct (vrun _ _ _ _ _) as [[oo s1]|] eqn:E; [|discriminate].
           pose proof (I6 o (push_switch (uniform_cf_switch (TU e) ss) true (full c st) c) _ _ _ _ W F E) as X. apply (dec_decl false) in X.
           destruct oo; injection H as <- <-; try (apply decl_loop; exact X); apply dec_end_loop; exact X.
        -- destruct (vsecs _ _ _ _ _ _ _ _) as [[oo s1]|] eqn:E; [|discriminate].
           pose proof (I7 o (push_switch false false (full c st) c) _ _ _ _ _ _ _ W F E) as X. apply decl_switch in X; auto.
           destruct oo; injection H as <- <-; auto; unfold dec; cbn; unfold mand; (split; [|auto]);
             intros Y; apply andb_prop in Y; tauto.
      * eapply dec_break; eauto.
      * eapply dec_continue; eauto.
      * unfold do_return in H. injection H as H.
        repeat match type of H with (if ?x then _ else _) = _ => destruct x end; injection H as <- <-;
          (split; [|split]); cbn; auto. discriminate.
      * destruct (nth_error _ _); [|discriminate].
        destruct (vexec _ _ _ _ _) as [[oo s1]|] eqn:E; [|discriminate].
        destruct oo; try discriminate; injection H as <- <-;
        match goal with |- dec _ _ (store c ?s x ?f) => destruct (store_same c s x f) as (Z1 & Z2 & Z3 & Z4 & _) end;
        unfold dec; rewrite Z1, Z3, Z4; cbn; auto.
    + intros o c sv ma mb ra rb a b st out st' W F HS HA HB H. cbn [vif] in H.
      assert (X : forall (q : bool) s m s1 oo s2, (m l = true -> v_mask st l = true) -> dec l st s1 ->
                  (if q then vexec n o (push_if false c) s (set_mask m s1) else Some (VNorm, s1)) = Some (oo, s2) -> dec l st s2).
      { intros [] s m s1 oo s2 Hm D X; [|injection X as <- <-; auto].
        pose proof (I1 o (push_if false c) _ _ _ _ W F X) as D2. unfold dec in *. cbn in D2. intuition. }
      destruct (if ra then vexec n o (push_if false c) a (set_mask ma st) else _) as [[oo s1]|] eqn:E; [|discriminate].
      apply X in E; auto; [|apply dec_refl]. destruct oo; try (injection H as <- <-; exact E).
      destruct (if rb then vexec n o (push_if false c) b (set_mask mb s1) else _) as [[oo s2]|] eqn:E2; [|discriminate].
      apply X in E2; auto. destruct oo; injection H as <- <-; auto. apply dec_end_if; auto.
    + intros o c old t a b st out st' W F HO H. cbn [vif_mixed] in H. eapply I2; [exact W|exact F| | | |exact H]; auto;
        unfold mand; intros X; apply andb_prop in X; tauto.
    + intros o c u coh t step body st out st' W F H. cbn [vtop] in H. cbv zeta in *. destruct u.
      * destruct (teval st t 0); [exact (I5 _ _ _ _ _ _ _ _ _ _ W F H)|injection H as <- <-; apply decl_refl].
      * assert (D1 : decl false l st (set_mask (mand (v_mask st) (teval st t)) st)).
        { unfold decl; cbn; unfold mand. repeat split; auto. intros X; apply andb_prop in X; tauto. }
        destruct (m_any _ _); [|injection H as <- <-; exact D1].
        eapply decl_trans; [exact D1|]. exact (I5 _ _ _ _ _ _ _ _ _ _ W F H).
    + intros o c u coh t step body st out st' W F H. cbn [vbody] in H. cbv zeta in H.
      set (sa := if coh && negb u && m_all (o_width o) (full c st) then set_mask all_on st else st) in *.
      assert (D0 : decl false l st sa).
      { unfold sa. destruct (coh && negb u && m_all (o_width o) (full c st)) eqn:EA; [|apply decl_refl].
        apply andb_prop in EA as [_ EA]. rewrite m_all_true in EA. specialize (EA l W). unfold full, mand in EA.
        apply andb_prop in EA as [EA _]. unfold decl. cbn. auto 6. }
      destruct (vexec n o _ body _) as [[oo s1]|] eqn:E; [|discriminate].
      pose proof (I1 o (set_be (full c st) c) _ _ _ _ W F E) as X. apply (dec_decl false) in X.
      pose proof (decl_trans _ _ _ _ _ D0 X) as D1.
      assert (ST : match vexec n o (set_be (full c st) c) step (restore_continued c s1) with
            | Some (VNorm, st3) => vtop n o c u coh t step body st3
            | r => r
            end = Some (out, st') -> decl false l st st').
      { clear H. intros H. destruct (vexec n o _ step _) as [[oo2 s2]|] eqn:E2; [|discriminate].
        pose proof (I1 o (set_be (full c st) c) _ _ _ _ W F E2) as X2. apply (dec_decl false) in X2.
        pose proof (decl_restore l s1 (decl_refl _ _ _) c) as X1.
        pose proof (decl_trans _ _ _ _ _ D1 (decl_trans _ _ _ _ _ X1 X2)) as D2.
        destruct oo2; try (injection H as <- <-; exact D2).
        eapply decl_trans; [exact D2|]. exact (I4 _ _ _ _ _ _ _ _ _ _ W F H). }
      destruct oo; auto; injection H as <- <-; exact D1.
    + intros o c ss st out st' W F H. cbn [vrun] in H. destruct ss; [injection H as <- <-; apply dec_refl|].
      destruct (vexec n o _ _ _) as [[oo s1]|] eqn:E; [|discriminate]. pose proof (I1 _ _ _ _ _ _ W F E) as X.
      destruct oo; try (injection H as <- <-; exact X). eapply dec_trans; eauto.
    + intros o c sv v cs ss st out st' W F H. cbn [vsecs] in H. cbv zeta in H.
      destruct ss; [injection H as <- <-; apply decl_refl|].
      set (m := mor (v_mask st) (mand sv (fun l => label_matches cs lbl (v l)))) in *.
      assert (D1 : decl (sv l) l st (set_mask m st)).
      { unfold decl; cbn; unfold m, mor, mand. repeat split; auto.
        intros X. apply orb_prop in X as [X|X]; auto. apply andb_prop in X; tauto. }
      destruct (check_mask _ _ && _).
      * eapply decl_trans; [exact D1|]. exact (I7 _ _ _ _ _ _ _ _ _ W F H).
      * destruct (vexec n o _ _ _) as [[oo s1]|] eqn:E; [|discriminate].
        pose proof (I1 _ _ _ _ _ _ W F E) as X. apply (dec_decl (sv l)) in X.
        pose proof (decl_trans _ _ _ _ _ D1 X) as D2.
        destruct oo; try (injection H as <- <-; exact D2). eapply decl_trans; [exact D2|].
        exact (I7 _ _ _ _ _ _ _ _ _ W F H).
Qed.

Lemma vexec_dec n o c s st out st' l :
  l < o_width o -> c_fm c l = true -> vexec n o c s st = Some (out, st') -> dec l st st'.
Proof. apply (dec_lanes l n). Qed.
