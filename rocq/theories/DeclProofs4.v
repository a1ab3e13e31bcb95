(** Proofs about the members of structures. *)
From Coq Require Import ZArith List Bool Arith Lia.
From Verif Require Import DeclModel DeclSpec DeclProofs DeclProofs2 DeclProofs3.
Import ListNotations.

Definition isq (a b : qual) : bool := match a, b with QConst, QConst | QUniform, QUniform | QVarying, QVarying => true | _, _ => false end.
Definition hasq (q : qual) (l : list qual) : bool := existsb (isq q) l.
Lemma hasq_in : forall q l, hasq q l = true <-> In q l.
Proof.
  intros q l. unfold hasq. rewrite existsb_exists. split.
  - intros [a [A B]]. destruct q, a; try discriminate; exact A.
  - intros A. exists q. split; [exact A|]. destruct q; reflexivity.
Qed.
Lemma outer_uniform : forall t b, as_uniform t = Some b -> not_ref t -> wf t -> outer b = Uni.
Proof. induction t; intros b' H N W; cbn in H; try (inversion H; subst; reflexivity). - destruct (as_uniform t) eqn:E; inversion H; subst. cbn. cbn in W. apply IHt; tauto. - case (N _ _ eq_refl). Qed.
Lemma outer_varying : forall t b, as_varying t = Some b -> not_ref t -> is_void t = false -> wf t -> outer b = Vry.
Proof.
  induction t; intros b' H N V W; cbn in H; try (inversion H; subst; reflexivity); try discriminate.
  - destruct (as_varying t) eqn:E; inversion H; subst. cbn. cbn in W. apply IHt; try tauto. destruct t; try reflexivity. destruct W as [_ [W _]]. case (W _ eq_refl).
  - case (N _ _ eq_refl).
Qed.
Lemma void_uniform : forall t b, as_uniform t = Some b -> is_void b = is_void t.
Proof. intros t b H. destruct t; cbn in H; try (inversion H; subst; reflexivity). - destruct (as_uniform t); inversion H; reflexivity. - destruct (is_var v Uni); [inversion H; reflexivity|]. destruct (as_uniform t); inversion H; reflexivity. Qed.
Lemma void_varying : forall t b, as_varying t = Some b -> is_void b = is_void t.
Proof. intros t b H. destruct t; cbn in H; try (inversion H; subst; reflexivity). - destruct (as_varying t); inversion H; reflexivity. - destruct (is_var v Vry); [inversion H; reflexivity|]. destruct (as_varying t); inversion H; reflexivity. Qed.

Lemma member_type_ok : forall t l, wf t -> not_ref t ->
  (In QUniform l -> is_void t = false /\ outer t <> Vry) -> (In QVarying l -> is_void t = false /\ outer t <> Uni) -> ~ (In QUniform l /\ In QVarying l) ->
  exists t1, member_type t l = Some t1 /\ wf t1 /\ not_ref t1 /\ is_void t1 = is_void t /\
    outer t1 = (if hasq QUniform l then Uni else if hasq QVarying l then Vry else outer t) /\
    forall d s, completes d t1 s <-> exists u, completes (if hasq QUniform l then false else if hasq QVarying l then true else d) t u /\ s = if hasq QConst l then constant u else u.
Proof.
  intros t. induction l as [|q r IH]; intros W N HU HV UV.
  - exists t. repeat split; auto; cbn; [eauto|]. intros [u [A ->]]. exact A.
  - destruct IH as [t1 [E1 [W1 [N1 [V1 [O1 C1]]]]]]; auto; try (intros A; apply HU; right; exact A); try (intros A; apply HV; right; exact A).
    { intros [A B]. apply UV. split; right; assumption. }
    cbn [member_type]. rewrite E1. destruct q; cbn [apply1].
    + destruct (as_const_ok t1 W1 N1) as [B1 [B2 [B3 [B4 B5]]]]. exists (as_const t1). repeat split; auto; try congruence.
      * cbn. rewrite B4, O1. reflexivity.
      * intros Q. apply B5 in Q. destruct Q as [w [Q ->]]. apply C1 in Q. destruct Q as [u [Q ->]]. exists u. split; [exact Q|]. cbn. destruct (hasq QConst r); [|reflexivity]. clear. induction u; cbn; congruence.
      * intros [u [Q ->]]. apply B5. cbn. eexists. split; [apply C1; exists u; split; [exact Q|reflexivity]|]. destruct (hasq QConst r); [|reflexivity]. clear. induction u; cbn; congruence.
    + destruct (HU (or_introl eq_refl)) as [U1 U2]. rewrite V1, U1. assert (NV : hasq QVarying r = false).
      { destruct (hasq QVarying r) eqn:E; [|reflexivity]. apply hasq_in in E. case UV. split; [left; reflexivity|right; exact E]. }
      assert (O2 : outer t1 <> Vry) by (rewrite O1, NV; destruct (hasq QUniform r); congruence).
      destruct (as_uniform_ok t1 W1 N1 O2) as [b [B1 [B2 [B3 [B4 B5]]]]]. exists b. repeat split; auto; try congruence.
      * cbn. eapply outer_uniform; eauto.
      * intros Q. apply B5 in Q. apply C1 in Q. destruct Q as [u [Q ->]]. exists u. split; [|reflexivity]. cbn. rewrite NV in Q. destruct (hasq QUniform r); exact Q.
      * intros [u [Q ->]]. apply B5. apply C1. exists u. split; [|reflexivity]. cbn in Q. rewrite NV. destruct (hasq QUniform r); exact Q.
    + destruct (HV (or_introl eq_refl)) as [U1 U2]. rewrite V1, U1. assert (NV : hasq QUniform r = false).
      { destruct (hasq QUniform r) eqn:E; [|reflexivity]. apply hasq_in in E. case UV. split; [right; exact E|left; reflexivity]. }
      assert (O2 : outer t1 <> Uni) by (rewrite O1, NV; destruct (hasq QVarying r); congruence).
      destruct (as_varying_ok t1 W1 N1 O2) as [b [B1 [B2 [B3 [B4 B5]]]]]. exists b. repeat split; auto; try congruence.
      * cbn. change (existsb (isq QUniform) r) with (hasq QUniform r). rewrite NV. eapply outer_varying; eauto; congruence.
      * intros Q. apply B5 in Q. apply C1 in Q. destruct Q as [u [Q ->]]. exists u. split; [|reflexivity]. cbn. change (existsb (isq QUniform) r) with (hasq QUniform r). rewrite NV in *. destruct (hasq QVarying r); exact Q.
      * intros [u [Q ->]]. apply B5. apply C1. exists u. split; [|reflexivity]. cbn in Q. change (existsb (isq QUniform) r) with (hasq QUniform r) in Q. rewrite NV in *. destruct (hasq QVarying r); exact Q.
Qed.

Lemma in_snoc : forall q l a, is_type a = true -> (In (SQual q) (map SQual l ++ [a]) <-> In q l).
Proof.
  intros q l a T. rewrite in_app_iff, in_map_iff. split.
  - intros [[x [A B]]|[A|[]]]; [inversion A; subst; exact B|subst; discriminate].
  - intros A. left. exists q. auto.
Qed.
Lemma types_map : forall l a, is_type a = true -> types_in (map SQual l ++ [a]) = [a].
Proof. intros l a T. rewrite types_snoc. replace (types_in (map SQual l)) with (@nil spec); [destruct a; [reflexivity|reflexivity|reflexivity|discriminate]|]. induction l; cbn; auto. Qed.

Theorem member_ok : forall e l a D, wf_env e -> is_type a = true -> ok_specs e (map SQual l ++ [a]) -> kept e D ->
  (forall t c, spec_type e a = Some (t, c) -> (In QUniform l -> outer t <> Vry) /\ (In QVarying l -> is_void t = false -> outer t <> Uni)) -> ~ (In QUniform l /\ In QVarying l) ->
  forall d0 s, (exists t, member e l a D = Some t /\ completes d0 t s) <->
    legal s /\ (forall c, s <> CVoid c) /\ exists s' d', reads e D s d0 s' d' /\ base_is e (map SQual l ++ [a]) d' s'.
Proof.
  intros e l a D WE T OK K HC UV d0 s. destruct (proj1 (good_all e WE) D K) as [S [C L]].
  assert (TN : forall t, type_named e (map SQual l ++ [a]) t <-> exists c, spec_type e a = Some (t, c)).
  { intros t. unfold type_named. rewrite (types_map l a T). destruct a as [b| |x|]; cbn; try discriminate.
    - split; [intros ->; eauto|intros [c E]; inversion E; reflexivity].
    - split; [intros ->; eauto|intros [c E]; inversion E; reflexivity].
    - destruct (lookup e x); cbn; split; [intros E; inversion E; subst; eauto|intros [c E]; inversion E; reflexivity|discriminate|intros [c E]; discriminate]. }
  assert (MB : forall t c t1, spec_type e a = Some (t, c) -> member_type t l = Some t1 ->
     exists b, apply_quals (if is_void t1 then (if c && match l with [] => true | _ => false end then Q false true false else no_quals) else match var_of t1 with Uni => Q false true false | Vry => Q false false true | Unb => no_quals end) t1 = Some b
       /\ wf b /\ forall d u, completes d b u <-> base_is e (map SQual l ++ [a]) d u).
  { intros t c t1 ES EM. assert (TT : type_named e (map SQual l ++ [a]) t) by (apply TN; eauto).
    destruct (named_facts e _ t WE OK TT) as [W [N LV]].
    assert (IV : is_void t = true -> member_type t l = Some t1 -> ~ In QUniform l /\ ~ In QVarying l).
    { clear - N. intros V. revert t1. induction l as [|q r IH]; intros t1 H; [cbn; tauto|]. cbn in H. destruct (member_type t r) as [t2|] eqn:E; [|discriminate].
      destruct (IH t2 eq_refl) as [A B]. assert (V2 : is_void t2 = true).
      { clear - V E A B. revert t2 E A B. induction r as [|q r IH]; intros t2 E A B; cbn in E; [inversion E; subst; exact V|]. destruct (member_type t r) as [t3|]; [|discriminate].
        specialize (IH t3 eq_refl ltac:(intros X; apply A; right; exact X) ltac:(intros X; apply B; right; exact X)).
        destruct q; cbn in E; [inversion E; destruct t3; try discriminate; reflexivity|case A; left; reflexivity|case B; left; reflexivity]. }
      destruct q; cbn in H; rewrite ?V2 in H; try discriminate. split; intros [X|X]; try discriminate; auto. }
    assert (HU : In QUniform l -> is_void t = false /\ outer t <> Vry).
    { intros A. split; [|apply (HC t c ES); exact A]. destruct (is_void t) eqn:V; [|reflexivity]. destruct (IV eq_refl EM) as [X _]. contradiction. }
    assert (HV : In QVarying l -> is_void t = false /\ outer t <> Uni).
    { intros A. assert (is_void t = false) by (destruct (is_void t) eqn:V; [destruct (IV eq_refl EM) as [_ X]; contradiction|reflexivity]). split; [assumption|]. apply (HC t c ES); auto. }
    destruct (member_type_ok t l W N HU HV UV) as [t1' [E1 [W1 [N1 [V1 [O1 C1]]]]]]. rewrite E1 in EM. inversion EM; subst t1'. clear EM.
    assert (BI : forall d u, completes d t1 u <-> base_is e (map SQual l ++ [a]) d u).
    { intros d u. rewrite C1. clear C1. split.
      - intros [w [Q1 Q2]]. exists t, w. repeat split; auto.
        + intros [A B]. apply (in_snoc _ l a T) in A. apply (in_snoc _ l a T) in B. auto.
        + apply HU. apply (in_snoc _ l a T). assumption.
        + apply HU. apply (in_snoc _ l a T). assumption.
        + apply HV. apply (in_snoc _ l a T). assumption.
        + apply HV. apply (in_snoc _ l a T). assumption.
        + intros d' D1 D2 D3. replace d' with (if hasq QUniform l then false else if hasq QVarying l then true else d); [exact Q1|].
          destruct (hasq QUniform l) eqn:X1; [symmetry; apply D1; apply (in_snoc _ l a T); apply hasq_in; exact X1|].
          destruct (hasq QVarying l) eqn:X2; [symmetry; apply D2; apply (in_snoc _ l a T); apply hasq_in; exact X2|].
          symmetry. apply D3; intros A; apply (in_snoc _ l a T) in A; apply hasq_in in A; congruence.
        + intros A. apply (in_snoc _ l a T) in A. apply hasq_in in A. rewrite A in Q2. exact Q2.
        + intros A. destruct (hasq QConst l) eqn:X; [|exact Q2]. case A. apply (in_snoc _ l a T). apply hasq_in. exact X.
      - intros [t' [w [T1 [T2 [T3 [T4 [T5 [T6 T7]]]]]]]]. apply TN in T1. destruct T1 as [c' T1]. rewrite ES in T1. inversion T1; subst t'.
        exists w. split.
        + apply T5.
          * intros A. apply (in_snoc _ l a T) in A. apply hasq_in in A. rewrite A. reflexivity.
          * intros A. apply (in_snoc _ l a T) in A. apply hasq_in in A. rewrite A. destruct (hasq QUniform l) eqn:X; [|reflexivity]. apply hasq_in in X. apply hasq_in in A. case UV; auto.
          * intros A1 A2. destruct (hasq QUniform l) eqn:X1; [case A1; apply (in_snoc _ l a T); apply hasq_in; exact X1|].
            destruct (hasq QVarying l) eqn:X2; [case A2; apply (in_snoc _ l a T); apply hasq_in; exact X2|reflexivity].
        + destruct (hasq QConst l) eqn:X; [apply T6; apply (in_snoc _ l a T); apply hasq_in; exact X|apply T7; intros A; apply (in_snoc _ l a T) in A; apply hasq_in in A; congruence]. }
    assert (CF : is_void t = true -> c = false).
    { intros V. destruct LV as [[L1 _]|[L1 _]]; [congruence|]. subst t. destruct a as [b| |x|]; cbn in ES; try discriminate.
      - inversion ES. destruct OK as [_ [NV _]]. exact NV.
      - destruct (lookup e x) as [w|] eqn:EL; [|discriminate]. inversion ES; subst. destruct OK as [_ [_ OK]]. destruct (OK x (Void false)) as [X _]; [apply in_or_app; right; left; reflexivity|exact EL|]. case (X _ eq_refl). }
    destruct (is_void t1) eqn:VT.
    - assert (c = false) by (apply CF; congruence). subst c. cbn. exists t1. unfold apply_quals. cbn. rewrite VT. repeat split; auto; apply BI.
    - rewrite (var_outer t1 W1 N1).
      destruct (quals_ok false false false (outer t1) t1 W1 N1) as [b [B1 [B2 [B3 B4]]]]; auto; try discriminate; [intros [A _]; discriminate|].
      exists b. split; [|split; [exact B2|]].
      + rewrite <- B1. cbn [orb]. destruct (outer t1); reflexivity.
      + intros d u. rewrite B4, <- BI. split; [intros [w [A ->]]; exact A|eauto]. }
  unfold member. split.
  - intros [t [H Q]]. destruct (spec_type e a) as [[u c]|] eqn:ES; [|discriminate]. destruct (member_type u l) as [t1|] eqn:EM; [|discriminate].
    destruct (MB u c t1 eq_refl EM) as [b [B1 [B2 B3]]]. rewrite B1 in H. destruct (init e (obj_decl D) b) as [w|] eqn:EI; [|discriminate].
    assert (w = t /\ not_void t) as [-> NV] by (destruct w; inversion H; subst; split; try reflexivity; intros ? ?; discriminate).
    split; [eapply completes_legal; [|exact Q]; eapply (proj1 (init_wf e WE)); eauto|]. split; [intros c' ->; inversion Q; subst; case (NV _ eq_refl)|].
    destruct (S b t d0 s B2 EI Q) as [d' [s' [R BC]]]. exists s', d'. split; [exact R|apply B3; exact BC].
  - intros [LS [NV [s' [d' [R BI]]]]]. pose proof BI as BI0. destruct BI0 as [t [u [T1 [T2 [T3 [T4 [T5 _]]]]]]]. pose proof T1 as TT. apply TN in T1. destruct T1 as [c ES]. rewrite ES.
    destruct (named_facts e _ t WE OK TT) as [W [N LV]].
    assert (T3' : In QUniform l -> is_void t = false /\ outer t <> Vry) by (intros A; apply T3; apply (in_snoc _ l a T); exact A).
    assert (T4' : In QVarying l -> is_void t = false /\ outer t <> Uni) by (intros A; apply T4; apply (in_snoc _ l a T); exact A).
    destruct (member_type_ok t l W N T3' T4' UV) as [t1 [E1 _]]. rewrite E1. destruct (MB t c t1 ES E1) as [b [B1 [B2 B3]]]. rewrite B1. apply B3 in BI.
    destruct (C b d0 s d' s' B2 LS R BI) as [w [EW CW]]. rewrite EW. exists w. split; [|exact CW]. destruct w; try reflexivity. inversion CW; subst. case (NV _ eq_refl).
Qed.
