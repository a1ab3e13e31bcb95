(** Facts about gang execution used for C03 and C13: more fuel does not change the result;
    how the mask and the recorded lanes may change. *)
From Coq Require Import ZArith List Bool Arith Lia.
From Verif Require Import Bits SpmdModel SpmdSpec SpmdRel SpmdGuard.
Import ListNotations.

(** ** Fuel *)

Definition Mono (n : nat) : Prop :=
  (forall o c s st r, vexec n o c s st = Some r -> vexec (S n) o c s st = Some r) /\
  (forall o c sv ma mb ra rb a b st r, vif n o c sv ma mb ra rb a b st = Some r ->
     vif (S n) o c sv ma mb ra rb a b st = Some r) /\
  (forall o c old t a b st r, vif_mixed n o c old t a b st = Some r -> vif_mixed (S n) o c old t a b st = Some r) /\
  (forall o c u coh t step body st r, vtop n o c u coh t step body st = Some r ->
     vtop (S n) o c u coh t step body st = Some r) /\
  (forall o c u coh t step body st r, vbody n o c u coh t step body st = Some r ->
     vbody (S n) o c u coh t step body st = Some r) /\
  (forall o c ss st r, vrun n o c ss st = Some r -> vrun (S n) o c ss st = Some r) /\
  (forall o c sv v cs ss st r, vsecs n o c sv v cs ss st = Some r -> vsecs (S n) o c sv v cs ss st = Some r).

Lemma vexec_eq n o c s st : vexec (S n) o c s st =
    match s with
    | SSkip => Some (VNorm, st)
    | SSeq a b => match vexec n o c a st with Some (VNorm, st1) => vexec n o c b st1 | r => r end
    | SDecl x e => Some (VNorm, set_V (upd (v_V st) x (fun l => xeval st l e)) st)
    | SUDecl u e | SUAssign u e => Some (VNorm, set_U (upd (v_U st) u (ueval (v_U st) e)) st)
    | SAssign x e => Some (VNorm, store c st x (fun l => xeval st l e))
    | SEmit k e =>
        Some (VNorm, set_tr (v_tr st ++ [(k, fun l => if full c st l then Some (xeval st l e) else None)]) st)
    | SIf coh (TU e) a b => vexec n o (push_if true c) (if is_true (ueval (v_U st) e) then a else b) st
    | SIf coh (TV e) a b =>
        let t := fun l => is_true (xeval st l e) in
        let old := v_mask st in
        let w := o_width o in
        if coh then
          if m_all w (full c st) then
            if m_all w t then vif n o c all_on all_on all_off true false a b st
            else if m_any w t then vif n o c all_on t (mnot t) true true a b st
            else vif n o c all_on all_off all_on false true a b st
          else vif_mixed n o c old t a b st
        else if predicated o a b then
          vif n o c old (mand old t) (mand old (mnot t)) true true a b st
        else vif_mixed n o c old t a b st
    | SDo coh body t =>
        match vbody n o (push_loop (uniform_cf t body) c) (uniform_cf t body) coh t SSkip body (set_bc all_off all_off st) with
        | Some (VNorm, st1) => Some (VNorm, end_loop (uniform_cf t body) st st1)
        | r => r
        end
    | SFor coh i t step body =>
        match vexec n o (push_loop (uniform_cf t body) c) i (set_bc all_off all_off st) with
        | Some (VNorm, st1) =>
            match vtop n o (push_loop (uniform_cf t body) c) (uniform_cf t body) coh t step body st1 with
            | Some (VNorm, st2) => Some (VNorm, end_loop (uniform_cf t body) st st2)
            | r => r
            end
        | r => r
        end
    | SSwitch (TU e) ss =>
        match vrun n o (push_switch (uniform_cf_switch (TU e) ss) true (full c st) c)
                (scalar_target (ueval (v_U st) e) ss) (set_bc all_off all_off st) with
        | Some (VNorm, st1) | Some (VBrk, st1) => Some (VNorm, end_loop (uniform_cf_switch (TU e) ss) st st1)
        | r => r
        end
    | SSwitch (TV e) ss =>
        match vsecs n o (push_switch false false (full c st) c) (v_mask st) (fun l => xeval st l e) (case_values ss) ss
                (set_mask all_off (set_bc all_off all_off st)) with
        | Some (VNorm, st1) | Some (VBrk, st1) => Some (VNorm, end_loop false st st1)
        | r => r
        end
    | SBreak => do_break (o_width o) c st
    | SContinue => do_continue (o_width o) c st
    | SReturn e => Some (do_return (o_width o) c st (fun l => xeval st l e))
    | SCall x f us vs =>
        match nth_error (o_funs o) f with
        | None => None
        | Some fd =>
            match vexec n o (fun_cx (entry_mask o (f_body fd) (full c st)) (dep_of (f_body fd))) (f_body fd)
                    (fun_state (bind 0 (map (ueval (v_U st)) us) (fun _ => 0%Z))
                       (bind 0 (map (fun e l => xeval st l e) vs) (fun _ _ => 0%Z)) st) with
            | Some (VNorm, st1) | Some (VRet, st1) =>
                Some (VNorm, store c (set_tr (v_tr st1) (set_G (v_G st1) st)) x (v_rv st1))
            | _ => None
            end
        end
    end.
Proof. destruct s; try reflexivity; destruct t; reflexivity. Qed.

Ltac splitc := repeat match goal with |- _ /\ _ => split end.

Ltac md :=
  match goal with
  | IH : forall o c s st r, vexec ?n o c s st = Some r -> _, H : context [vexec ?n ?o ?c ?s ?st] |- _ =>
      destruct (vexec n o c s st) as [[[] ?]|] eqn:?E; try discriminate;
      try rewrite (IH _ _ _ _ _ E)
  end.

Lemma mono_step n : Mono n.
Proof.
  induction n as [|n (I1 & I2 & I3 & I4 & I5 & I6 & I7)].
  - unfold Mono. splitc; intros; discriminate.
  - unfold Mono. splitc.
    + intros o c s st r H. rewrite vexec_eq in H. rewrite vexec_eq.
      destruct s as [|a b|x e|u e|x e|u e|k e|coh t a b|coh body t|coh i t step body|t ss| | |e|x f us vs]; auto.
      * destruct (vexec n o c a st) as [[oo s1]|] eqn:E; [|discriminate]. rewrite (I1 _ _ _ _ _ E). destruct oo; auto.
      * destruct t; auto. cbv zeta in *.
        repeat match goal with |- (if ?x then _ else _) = _ => destruct x end; auto.
      * destruct (vbody _ _ _ _ _ _ _ _ _) as [[oo s1]|] eqn:E; [|discriminate]. rewrite (I5 _ _ _ _ _ _ _ _ _ E). auto.
      * destruct (vexec _ _ _ _ _) as [[oo s1]|] eqn:E; [|discriminate]. rewrite (I1 _ _ _ _ _ E).
        destruct oo; auto.
        destruct (vtop _ _ _ _ _ _ _ _ _) as [[oo s2]|] eqn:E2; [|discriminate]. rewrite (I4 _ _ _ _ _ _ _ _ _ E2). auto.
      * destruct t.
        -- destruct (vrun _ _ _ _ _) as [[oo s1]|] eqn:E; [|discriminate]. rewrite (I6 _ _ _ _ _ E). auto.
        -- destruct (vsecs _ _ _ _ _ _ _ _) as [[oo s1]|] eqn:E; [|discriminate]. rewrite (I7 _ _ _ _ _ _ _ _ E). auto.
      * destruct (nth_error _ _); [|discriminate].
        destruct (vexec _ _ _ _ _) as [[oo s1]|] eqn:E; [|discriminate]. rewrite (I1 _ _ _ _ _ E). auto.
    + intros o c sv ma mb ra rb a b st r H. cbn [vif] in H. change (vif (S (S n)) o c sv ma mb ra rb a b st) with
        (match (if ra then vexec (S n) o (push_if false c) a (set_mask ma st) else Some (VNorm, st)) with
         | Some (VNorm, st1) =>
           match (if rb then vexec (S n) o (push_if false c) b (set_mask mb st1) else Some (VNorm, st1)) with
           | Some (VNorm, st2) => Some (VNorm, end_if c sv st2) | r => r end | r => r end).
      assert (X : forall (q : bool) s s0 y, (if q then vexec n o (push_if false c) s s0 else Some (VNorm, y)) <> None ->
                 (if q then vexec (S n) o (push_if false c) s s0 else Some (VNorm, y)) =
                 (if q then vexec n o (push_if false c) s s0 else Some (VNorm, y))).
      { intros [] s s0 y Hn; auto. destruct (vexec n o (push_if false c) s s0) eqn:E; [|congruence]. auto. }
      destruct (if ra then vexec n o (push_if false c) a (set_mask ma st) else _) as [[oo s1]|] eqn:E; [|discriminate].
      rewrite X by congruence. rewrite E. destruct oo; auto.
      destruct (if rb then vexec n o (push_if false c) b (set_mask mb s1) else _) as [[oo s2]|] eqn:E2; [|discriminate].
      rewrite X by congruence. rewrite E2. auto.
    + intros o c old t a b st r H. cbn [vif_mixed] in H |- *. apply I2. exact H.
    + intros o c u coh t step body st r H. cbn [vtop] in H |- *. cbv zeta in *.
      repeat match goal with |- (if ?x then _ else _) = _ => destruct x end; auto.
    + intros o c u coh t step body st r H. cbn [vbody] in H. cbv zeta in H.
      change (vbody (S (S n)) o c u coh t step body st) with
       (let c1 := set_be (full c st) c in
        let st1 := if coh && negb u && m_all (o_width o) (full c st) then set_mask all_on st else st in
        match vexec (S n) o c1 body st1 with
        | Some (VNorm, st2) | Some (VCont, st2) =>
            match vexec (S n) o c1 step (restore_continued c st2) with
            | Some (VNorm, st3) => vtop (S n) o c u coh t step body st3
            | r => r
            end
        | Some (VBrk, st2) => Some (VNorm, st2)
        | r => r
        end). cbv zeta.
      destruct (vexec n o _ body _) as [[oo s1]|] eqn:E; [|discriminate]. rewrite (I1 _ _ _ _ _ E).
      destruct oo; auto; destruct (vexec n o _ step _) as [[oo s2]|] eqn:E2; try discriminate; rewrite (I1 _ _ _ _ _ E2);
        destruct oo; auto.
    + intros o c ss st r H. cbn [vrun] in H. change (vrun (S (S n)) o c ss st) with
        (match ss with SNil => Some (VNorm, st) | SSec _ body r =>
          match vexec (S n) o c body st with Some (VNorm, st1) => vrun (S n) o c r st1 | x => x end end).
      destruct ss; auto.
      destruct (vexec n o _ _ _) as [[oo s1]|] eqn:E; [|discriminate]. rewrite (I1 _ _ _ _ _ E). destruct oo; auto.
    + intros o c sv v cs ss st r H. cbn [vsecs] in H. cbv zeta in H.
      change (vsecs (S (S n)) o c sv v cs ss st) with
       (match ss with
        | SNil => Some (VNorm, st)
        | SSec lbl body r =>
          let m := mor (v_mask st) (mand sv (fun l => label_matches cs lbl (v l))) in
          let st1 := set_mask m st in
          if check_mask o body && negb (m_any (o_width o) m) then vsecs (S n) o c sv v cs r st1
          else
          match vexec (S n) o c body st1 with
          | Some (VNorm, st2) => vsecs (S n) o c sv v cs r st2
          | x => x
          end end). destruct ss; auto. cbv zeta.
      destruct (check_mask _ _ && _); auto.
      destruct (vexec n o _ _ _) as [[oo s1]|] eqn:E; [|discriminate]. rewrite (I1 _ _ _ _ _ E). destruct oo; auto.
Qed.

Lemma vexec_mono n m o c s st r : n <= m -> vexec n o c s st = Some r -> vexec m o c s st = Some r.
Proof. induction 1; intros; auto. apply mono_step; auto. Qed.
Lemma vif_mono n m o c sv ma mb ra rb a b st r :
  n <= m -> vif n o c sv ma mb ra rb a b st = Some r -> vif m o c sv ma mb ra rb a b st = Some r.
Proof. induction 1; intros; auto. apply mono_step; auto. Qed.
Lemma vif_mixed_mono n m o c old t a b st r :
  n <= m -> vif_mixed n o c old t a b st = Some r -> vif_mixed m o c old t a b st = Some r.
Proof. induction 1; intros; auto. apply mono_step; auto. Qed.
Lemma vtop_mono n m o c u coh t step body st r :
  n <= m -> vtop n o c u coh t step body st = Some r -> vtop m o c u coh t step body st = Some r.
Proof. induction 1; intros; auto. apply mono_step; auto. Qed.
Lemma vbody_mono n m o c u coh t step body st r :
  n <= m -> vbody n o c u coh t step body st = Some r -> vbody m o c u coh t step body st = Some r.
Proof. induction 1; intros; auto. apply mono_step; auto. Qed.
Lemma vrun_mono n m o c ss st r : n <= m -> vrun n o c ss st = Some r -> vrun m o c ss st = Some r.
Proof. induction 1; intros; auto. apply mono_step; auto. Qed.
Lemma vsecs_mono n m o c sv v cs ss st r :
  n <= m -> vsecs n o c sv v cs ss st = Some r -> vsecs m o c sv v cs ss st = Some r.
Proof. induction 1; intros; auto. apply mono_step; auto. Qed.

Lemma vexec_det n m o c s st r r' : vexec n o c s st = Some r -> vexec m o c s st = Some r' -> r = r'.
Proof.
  intros H1 H2. apply (vexec_mono n (n + m)) in H1; [|lia]. apply (vexec_mono m (n + m)) in H2; [|lia]. congruence.
Qed.

(** ** Recorded returns *)

Lemma store_same c st x f :
  v_mask (store c st x f) = v_mask st /\ v_ret (store c st x f) = v_ret st /\ v_brk (store c st x f) = v_brk st /\
  v_cnt (store c st x f) = v_cnt st /\ v_tr (store c st x f) = v_tr st.
Proof. destruct x; cbn; auto. Qed.

Lemma end_loop_ret u s0 s : v_ret (end_loop u s0 s) = v_ret s.
Proof. destruct u; reflexivity. Qed.

Lemma end_if_ret c sv s : v_ret (end_if c sv s) = v_ret s.
Proof. unfold end_if, restore_given_returns. destruct (_ || _); reflexivity. Qed.

Lemma restore_continued_ret c s : v_ret (restore_continued c s) = v_ret s.
Proof. unfold restore_continued. destruct (c_cl c), (c_bl c); reflexivity. Qed.

Lemma do_break_ret w c st out st' : do_break w c st = Some (out, st') -> v_ret st' = v_ret st.
Proof.
  unfold do_break. repeat match goal with |- (if ?b then _ else _) = _ -> _ => destruct b end;
    intros H; try discriminate; injection H as <- <-; reflexivity.
Qed.

Lemma do_continue_ret w c st out st' : do_continue w c st = Some (out, st') -> v_ret st' = v_ret st.
Proof.
  unfold do_continue. repeat match goal with |- (if ?b then _ else _) = _ -> _ => destruct b end;
    intros H; try discriminate; injection H as <- <-; reflexivity.
Qed.

Section RET.
Variable w : nat.
Variable P : mask -> mask -> mask -> Prop.
Hypothesis Prefl : forall fm r, P fm r r.
Hypothesis Ptrans : forall fm a b c, P fm a b -> P fm b c -> P fm a c.
Hypothesis Pstep : forall fm r m, (forall l, m l = true -> fm l = true) ->
  m_equal w fm (mor r m) = false -> P fm r (mor r m).

Definition Rret (n : nat) : Prop :=
  (forall o c s st out st', o_width o = w -> vexec n o c s st = Some (out, st') -> P (c_fm c) (v_ret st) (v_ret st')) /\
  (forall o c sv ma mb ra rb a b st out st', o_width o = w -> vif n o c sv ma mb ra rb a b st = Some (out, st') ->
     P (c_fm c) (v_ret st) (v_ret st')) /\
  (forall o c old t a b st out st', o_width o = w -> vif_mixed n o c old t a b st = Some (out, st') ->
     P (c_fm c) (v_ret st) (v_ret st')) /\
  (forall o c u coh t step body st out st', o_width o = w -> vtop n o c u coh t step body st = Some (out, st') ->
     P (c_fm c) (v_ret st) (v_ret st')) /\
  (forall o c u coh t step body st out st', o_width o = w -> vbody n o c u coh t step body st = Some (out, st') ->
     P (c_fm c) (v_ret st) (v_ret st')) /\
  (forall o c ss st out st', o_width o = w -> vrun n o c ss st = Some (out, st') -> P (c_fm c) (v_ret st) (v_ret st')) /\
  (forall o c sv v cs ss st out st', o_width o = w -> vsecs n o c sv v cs ss st = Some (out, st') ->
     P (c_fm c) (v_ret st) (v_ret st')).

Lemma ret_rel n : Rret n.
Proof.
  induction n as [|n (I1 & I2 & I3 & I4 & I5 & I6 & I7)].
  - unfold Rret. splitc; intros; discriminate.
  - unfold Rret. splitc.
    + intros o c s st out st' W H. rewrite vexec_eq in H.
      destruct s as [|a b|x e|u e|x e|u e|k e|coh t a b|coh body t|coh i t step body|t ss| | |e|x f us vs];
        try (injection H as <- <-; apply Prefl).
      * destruct (vexec n o c a st) as [[[] s1]|] eqn:E; try discriminate;
          try (injection H as <- <-; eapply I1; eauto; fail).
        eapply Ptrans; [eapply I1; eauto|eapply I1; eauto].
      * injection H as <- <-. rewrite (proj1 (proj2 (store_same _ _ _ _))). apply Prefl.
      * destruct t.
        -- exact (I1 _ _ _ _ _ _ W H).
        -- cbv zeta in H. repeat match type of H with (if ?x then _ else _) = _ => destruct x end;
             try (eapply I2; eauto; fail); eapply I3; eauto.
      * destruct (vbody _ _ _ _ _ _ _ _ _) as [[oo s1]|] eqn:E; [|discriminate]. pose proof (I5 _ _ _ _ _ _ _ _ _ _ W E) as X.
        destruct oo; injection H as <- <-; rewrite ?end_loop_ret; exact X.
      * destruct (vexec _ _ _ _ _) as [[oo s1]|] eqn:E; [|discriminate]. pose proof (I1 _ _ _ _ _ _ W E) as X.
        destruct oo; try (injection H as <- <-; exact X).
        destruct (vtop _ _ _ _ _ _ _ _ _) as [[oo s2]|] eqn:E2; [|discriminate]. pose proof (I4 _ _ _ _ _ _ _ _ _ _ W E2) as X2.
        destruct oo; injection H as <- <-; rewrite ?end_loop_ret; eapply Ptrans; eauto.
      * destruct t.
        -- destruct (vrun _ _ _ _ _) as [[oo s1]|] eqn:E; [|discriminate]. pose proof (I6 _ _ _ _ _ _ W E) as X.
           destruct oo; injection H as <- <-; rewrite ?end_loop_ret; exact X.
        -- destruct (vsecs _ _ _ _ _ _ _ _) as [[oo s1]|] eqn:E; [|discriminate]. pose proof (I7 _ _ _ _ _ _ _ _ _ W E) as X.
           destruct oo; injection H as <- <-; rewrite ?end_loop_ret; exact X.
      * rewrite (do_break_ret _ _ _ _ _ H). apply Prefl.
      * rewrite (do_continue_ret _ _ _ _ _ H). apply Prefl.
      * unfold do_return in H. injection H as H.
        destruct (vdepth (c_cf c) =? 0); [injection H as <- <-; apply Prefl|].
        destruct (m_equal (o_width o) (c_fm c) _) eqn:E; injection H as <- <-; [apply Prefl|].
        cbn. apply Pstep; [|rewrite <- W; exact E]. intros l Hl. unfold full, mand in Hl. apply andb_prop in Hl. tauto.
      * destruct (nth_error _ _); [|discriminate].
        destruct (vexec _ _ _ _ _) as [[oo s1]|] eqn:E; [|discriminate].
        destruct oo; try discriminate; injection H as <- <-; rewrite (proj1 (proj2 (store_same _ _ _ _))); apply Prefl.
    + intros o c sv ma mb ra rb a b st out st' W H. cbn [vif] in H.
      assert (X : forall (q : bool) s m s1 oo s2, (if q then vexec n o (push_if false c) s (set_mask m s1) else Some (VNorm, s1)) = Some (oo, s2) ->
                  P (c_fm c) (v_ret s1) (v_ret s2)).
      { intros [] s m s1 oo s2 X; [exact (I1 _ _ _ _ _ _ W X)|injection X as <- <-; apply Prefl]. }
      destruct (if ra then vexec n o (push_if false c) a (set_mask ma st) else _) as [[oo s1]|] eqn:E; [|discriminate].
      apply X in E. destruct oo; try (injection H as <- <-; exact E).
      destruct (if rb then vexec n o (push_if false c) b (set_mask mb s1) else _) as [[oo s2]|] eqn:E2; [|discriminate].
      apply X in E2. destruct oo; injection H as <- <-; rewrite ?end_if_ret; eapply Ptrans; eauto.
    + intros o c old t a b st out st' W H. cbn [vif_mixed] in H. eapply I2; eauto.
    + intros o c u coh t step body st out st' W H. cbn [vtop] in H. cbv zeta in *.
      repeat match type of H with (if ?x then _ else _) = _ => destruct x end;
        try (injection H as <- <-; apply Prefl); exact (I5 _ _ _ _ _ _ _ _ _ _ W H).
    + intros o c u coh t step body st out st' W H. cbn [vbody] in H. cbv zeta in H.
      assert (X0 : v_ret (if coh && negb u && m_all (o_width o) (full c st) then set_mask all_on st else st) = v_ret st)
        by (destruct (_ && _); reflexivity).
      destruct (vexec n o _ body _) as [[oo s1]|] eqn:E; [|discriminate]. pose proof (I1 _ _ _ _ _ _ W E) as X.
      rewrite X0 in X. change (c_fm (set_be (full c st) c)) with (c_fm c) in X.
      assert (ST : match vexec n o (set_be (full c st) c) step (restore_continued c s1) with
            | Some (VNorm, st3) => vtop n o c u coh t step body st3
            | r => r
            end = Some (out, st') -> P (c_fm c) (v_ret st) (v_ret st')).
      { clear H. intros H. destruct (vexec n o _ step _) as [[oo2 s2]|] eqn:E2; [|discriminate]. pose proof (I1 _ _ _ _ _ _ W E2) as X2.
        rewrite restore_continued_ret in X2. change (c_fm (set_be (full c st) c)) with (c_fm c) in X2.
        destruct oo2; try (injection H as <- <-; eapply Ptrans; eauto; fail).
        eapply Ptrans; [exact X|]. eapply Ptrans; [exact X2|]. eapply I4; eauto. }
      destruct oo; auto; injection H as <- <-; exact X.
    + intros o c ss st out st' W H. cbn [vrun] in H. destruct ss; [injection H as <- <-; apply Prefl|].
      destruct (vexec n o _ _ _) as [[oo s1]|] eqn:E; [|discriminate]. pose proof (I1 _ _ _ _ _ _ W E) as X.
      destruct oo; try (injection H as <- <-; exact X). eapply Ptrans; eauto.
    + intros o c sv v cs ss st out st' W H. cbn [vsecs] in H. cbv zeta in H.
      destruct ss; [injection H as <- <-; apply Prefl|].
      destruct (check_mask _ _ && _).
      * exact (I7 _ _ _ _ _ _ _ _ _ W H).
      * destruct (vexec n o _ _ _) as [[oo s1]|] eqn:E; [|discriminate]. pose proof (I1 _ _ _ _ _ _ W E) as X. cbn in X.
        destruct oo; try (injection H as <- <-; exact X). eapply Ptrans; eauto.
Qed.
End RET.

(** Some lane of the function mask has not returned. *)
Definition unret (w : nat) (fm r : mask) : Prop :=
  (forall l, l < w -> r l = true -> fm l = true) /\ exists l, l < w /\ fm l = true /\ r l = false.

Lemma unret_rel n w : Rret w (fun fm r r' => unret w fm r -> unret w fm r') n.
Proof.
  apply ret_rel; auto. intros fm r m Hm HE [U1 _].
  assert (U : forall l, l < w -> mor r m l = true -> fm l = true).
  { intros l Hl. unfold mor. intros X. apply orb_prop in X as [X|X]; auto. }
  split; auto.
  assert (NA : exists l, l < w /\ fm l <> mor r m l).
  { unfold m_equal in HE. clear U U1 Hm.
    assert (G : forall k s, forallb (fun l => Bool.eqb (fm l) (mor r m l)) (seq s k) = false ->
              exists l, l < s + k /\ fm l <> mor r m l).
    { induction k as [|k IH]; intros s HH; cbn in HH; [discriminate|].
      destruct (Bool.eqb (fm s) (mor r m s)) eqn:E.
      - destruct (IH (S s) HH) as (l & Hl & X). exists l. split; auto. lia.
      - exists s. split; [lia|]. intros X. rewrite X, eqb_reflx in E. discriminate. }
    exact (G w 0 HE). }
  destruct NA as (l & Hl & Hn). exists l. split; auto. specialize (U l Hl).
  destruct (fm l), (mor r m l); auto; try congruence. specialize (U eq_refl). discriminate.
Qed.

Lemma unret_exec n o c s st out st' :
  vexec n o c s st = Some (out, st') -> unret (o_width o) (c_fm c) (v_ret st) -> unret (o_width o) (c_fm c) (v_ret st').
Proof. intros H. exact (proj1 (unret_rel n _) o c s st out st' eq_refl H). Qed.

Lemma ret_grows_rel n w : Rret w (fun _ r r' => forall l, r l = true -> r' l = true) n.
Proof. apply ret_rel; auto. intros fm r m _ _ l Hl. unfold mor. rewrite Hl; auto. Qed.

Lemma ret_grows n o c s st out st' l :
  vexec n o c s st = Some (out, st') -> v_ret st l = true -> v_ret st' l = true.
Proof. intros H. exact (proj1 (ret_grows_rel n _) o c s st out st' eq_refl H l). Qed.

(** Sections reached by a jump are a suffix of the switch. *)
Inductive suffix : secs -> secs -> Prop :=
| sfx_refl ss : suffix ss ss
| sfx_tail lb b r ss : suffix ss r -> suffix ss (SSec lb b r).

Lemma suffix_nil ss : suffix SNil ss.
Proof. induction ss; constructor; auto. Qed.

Lemma sections_from_suffix p ss r : sections_from p ss = Some r -> suffix r ss.
Proof.
  induction ss as [|lb b r0 IH]; cbn [sections_from]; [discriminate|].
  destruct (p lb); intros H; [injection H as <-; constructor|constructor; auto].
Qed.

Lemma scalar_target_suffix v ss : suffix (scalar_target v ss) ss.
Proof.
  unfold scalar_target. destruct (sections_from _ ss) eqn:E; [eapply sections_from_suffix; eauto|].
  destruct (sections_from (fun l => match l with None => true | Some _ => false end) ss) eqn:E2;
    [eapply sections_from_suffix; eauto|apply suffix_nil].
Qed.

Lemma suffix_mret dp ss r : suffix r ss -> mret_secs dp ss = false -> mret_secs dp r = false.
Proof. induction 1; auto. cbn. intros X. apply orb_false_elim in X as [_ X]; auto. Qed.

Lemma vdepth_push t (u : bool) cf : vdepth ((t, u) :: cf) = (if u then 0 else 1) + vdepth cf.
Proof. destruct u; reflexivity. Qed.

Definition Nret (n : nat) : Prop :=
  (forall o c s st out st' dp, vexec n o c s st = Some (out, st') -> mret dp s = false ->
     (dp = false -> vdepth (c_cf c) = 0) -> v_ret st' = v_ret st) /\
  (forall o c sv ma mb ra rb a b st out st', vif n o c sv ma mb ra rb a b st = Some (out, st') ->
     mret true a = false -> mret true b = false -> v_ret st' = v_ret st) /\
  (forall o c old t a b st out st', vif_mixed n o c old t a b st = Some (out, st') ->
     mret true a = false -> mret true b = false -> v_ret st' = v_ret st) /\
  (forall o c u coh t step body st out st' dp, vtop n o c u coh t step body st = Some (out, st') ->
     mret dp step = false -> mret dp body = false -> (dp = false -> vdepth (c_cf c) = 0) -> v_ret st' = v_ret st) /\
  (forall o c u coh t step body st out st' dp, vbody n o c u coh t step body st = Some (out, st') ->
     mret dp step = false -> mret dp body = false -> (dp = false -> vdepth (c_cf c) = 0) -> v_ret st' = v_ret st) /\
  (forall o c ss st out st' dp, vrun n o c ss st = Some (out, st') -> mret_secs dp ss = false ->
     (dp = false -> vdepth (c_cf c) = 0) -> v_ret st' = v_ret st) /\
  (forall o c sv v cs ss st out st', vsecs n o c sv v cs ss st = Some (out, st') -> mret_secs true ss = false ->
     v_ret st' = v_ret st).

Ltac orbs := repeat match goal with H : _ || _ = false |- _ => apply orb_false_elim in H as [? ?] end.

Lemma noret n : Nret n.
Proof.
  induction n as [|n (I1 & I2 & I3 & I4 & I5 & I6 & I7)].
  - unfold Nret. splitc; intros; discriminate.
  - unfold Nret. splitc.
    + intros o c s st out st' dp H HM HD. rewrite vexec_eq in H.
      assert (DD : forall ty (u : bool), (dp || negb u = false -> vdepth ((ty, u) :: c_cf c) = 0)).
      { intros ty u X. apply orb_false_elim in X as [X1 X2]. destruct u; [|discriminate]. exact (HD X1). }
      destruct s as [|a b|x e|u e|x e|u e|k e|coh t a b|coh body t|coh i t step body|t ss| | |e|x f us vs]; cbn [mret] in HM; orbs;
        try (injection H as <- <-; reflexivity).
      * destruct (vexec n o c a st) as [[[] s1]|] eqn:E; try discriminate;
          try (injection H as <- <-; eapply I1; eauto; fail).
        etransitivity; [eapply I1; [exact H| |]; eauto|eapply I1; eauto].
      * injection H as <- <-. apply store_same.
      * destruct t; orbs.
        -- eapply (I1 _ _ _ _ _ _ dp H); [|exact HD]. destruct (is_true _); auto.
        -- cbv zeta in H. repeat match type of H with (if ?x then _ else _) = _ => destruct x end;
             try (eapply I2; eauto; fail); eapply I3; eauto.
      * destruct (vbody _ _ _ _ _ _ _ _ _) as [[oo s1]|] eqn:E; [|discriminate].
        pose proof (I5 _ _ _ _ _ _ _ _ _ _ _ E eq_refl HM (DD CLoop _)) as X.
        destruct oo; injection H as <- <-; rewrite ?end_loop_ret; exact X.
      * destruct (vexec _ _ _ _ _) as [[oo s1]|] eqn:E; [|discriminate].
        assert (X : v_ret s1 = v_ret st) by (eapply (I1 _ _ _ _ _ _ _ E); [eassumption|exact (DD CLoop _)]).
        destruct oo; try (injection H as <- <-; exact X).
        destruct (vtop _ _ _ _ _ _ _ _ _) as [[oo s2]|] eqn:E2; [|discriminate].
        assert (X2 : v_ret s2 = v_ret s1) by (eapply I4; [exact E2| | |exact (DD CLoop _)]; auto).
        destruct oo; injection H as <- <-; rewrite ?end_loop_ret; congruence.
      * destruct t.
        -- destruct (vrun _ _ _ _ _) as [[oo s1]|] eqn:E; [|discriminate].
           pose proof (I6 _ _ _ _ _ _ _ E (suffix_mret _ _ _ (scalar_target_suffix _ _) HM) (DD CSwitch _)) as X.
           destruct oo; injection H as <- <-; rewrite ?end_loop_ret; exact X.
        -- destruct (vsecs _ _ _ _ _ _ _ _) as [[oo s1]|] eqn:E; [|discriminate].
           cbn [uniform_cf_switch negb] in HM. rewrite orb_true_r in HM. pose proof (I7 _ _ _ _ _ _ _ _ _ E HM) as X.
           destruct oo; injection H as <- <-; rewrite ?end_loop_ret; exact X.
      * exact (do_break_ret _ _ _ _ _ H).
      * exact (do_continue_ret _ _ _ _ _ H).
      * subst dp. unfold do_return in H. rewrite (HD eq_refl) in H. injection H as <- <-. reflexivity.
      * destruct (nth_error _ _); [|discriminate].
        destruct (vexec _ _ _ _ _) as [[oo s1]|] eqn:E; [|discriminate].
        destruct oo; try discriminate; injection H as <- <-; rewrite (proj1 (proj2 (store_same _ _ _ _))); reflexivity.
    + intros o c sv ma mb ra rb a b st out st' H Ha Hb. cbn [vif] in H.
      assert (X : forall (q : bool) s m s1 oo s2, mret true s = false -> (if q then vexec n o (push_if false c) s (set_mask m s1) else Some (VNorm, s1)) = Some (oo, s2) ->
                  v_ret s2 = v_ret s1).
      { intros [] s m s1 oo s2 HX X; [|injection X as <- <-; auto]. apply (I1 _ _ _ _ _ _ true X); auto. discriminate. }
      destruct (if ra then vexec n o (push_if false c) a (set_mask ma st) else _) as [[oo s1]|] eqn:E; [|discriminate].
      apply X in E; auto. destruct oo; try (injection H as <- <-; exact E).
      destruct (if rb then vexec n o (push_if false c) b (set_mask mb s1) else _) as [[oo s2]|] eqn:E2; [|discriminate].
      apply X in E2; auto. destruct oo; injection H as <- <-; rewrite ?end_if_ret; congruence.
    + intros o c old t a b st out st' H. cbn [vif_mixed] in H. eapply I2; eauto.
    + intros o c u coh t step body st out st' dp H HS HB HD. cbn [vtop] in H. cbv zeta in *.
      repeat match type of H with (if ?x then _ else _) = _ => destruct x end;
        try (injection H as <- <-; reflexivity); exact (I5 _ _ _ _ _ _ _ _ _ _ _ H HS HB HD).
    + intros o c u coh t step body st out st' dp H HS HB HD. cbn [vbody] in H. cbv zeta in H.
      assert (X0 : v_ret (if coh && negb u && m_all (o_width o) (full c st) then set_mask all_on st else st) = v_ret st)
        by (destruct (_ && _); reflexivity).
      destruct (vexec n o _ body _) as [[oo s1]|] eqn:E; [|discriminate]. pose proof (I1 _ _ _ _ _ _ _ E HB HD) as X.
      rewrite X0 in X.
      assert (ST : match vexec n o (set_be (full c st) c) step (restore_continued c s1) with
            | Some (VNorm, st3) => vtop n o c u coh t step body st3
            | r => r
            end = Some (out, st') -> v_ret st' = v_ret st).
      { clear H. intros H. destruct (vexec n o _ step _) as [[oo2 s2]|] eqn:E2; [|discriminate].
        pose proof (I1 _ _ _ _ _ _ _ E2 HS HD) as X2.
        rewrite restore_continued_ret in X2.
        destruct oo2; try (injection H as <- <-; congruence).
        pose proof (I4 _ _ _ _ _ _ _ _ _ _ _ H HS HB HD). congruence. }
      destruct oo; auto; injection H as <- <-; exact X.
    + intros o c ss st out st' dp H HM HD. cbn [vrun] in H. destruct ss; [injection H as <- <-; reflexivity|].
      cbn [mret_secs] in HM. orbs.
      destruct (vexec n o _ _ _) as [[oo s1]|] eqn:E; [|discriminate]. assert (X : v_ret s1 = v_ret st) by (eapply (I1 _ _ _ _ _ _ _ E); [eassumption|exact HD]).
      destruct oo; try (injection H as <- <-; exact X). etransitivity; [eapply (I6 _ _ _ _ _ _ _ H); [eassumption|exact HD]|exact X].
    + intros o c sv v cs ss st out st' H HM. cbn [vsecs] in H. cbv zeta in H.
      destruct ss; [injection H as <- <-; reflexivity|]. cbn [mret_secs] in HM. orbs.
      destruct (check_mask _ _ && _).
      * apply (I7 _ _ _ _ _ _ _ _ _ H); auto.
      * destruct (vexec n o _ _ _) as [[oo s1]|] eqn:E; [|discriminate].
        assert (X : v_ret s1 = v_ret st) by (apply (I1 _ _ _ _ _ _ true E); auto; discriminate).
        destruct oo; try (injection H as <- <-; exact X). rewrite (I7 _ _ _ _ _ _ _ _ _ H); auto.
Qed.

Combined Scheme stmt_secs_ind2 from stmt_mind, secs_mind.

Lemma mret_mono : (forall s dp, mret true s = false -> mret dp s = false) /\
  (forall ss dp, mret_secs true ss = false -> mret_secs dp ss = false).
Proof.
  apply stmt_secs_ind2; intros; cbn [mret mret_secs] in *; cbv zeta in *; cbn [orb] in *; auto; try discriminate.
  - orbs. rewrite H, H0; auto.
  - destruct t; auto. orbs. rewrite H, H0; auto.
  - orbs. rewrite H, H0, H1; auto.
  - orbs. rewrite H, H0; auto.
Qed.
