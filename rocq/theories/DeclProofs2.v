(** Proofs about specifiers. *)
From Coq Require Import ZArith List Bool Arith Lia.
From Verif Require Import DeclModel DeclSpec DeclProofs.
Import ListNotations.

Lemma var_outer : forall t, wf t -> not_ref t -> var_of t = outer t.
Proof. induction t; cbn; intros W N; try reflexivity; [apply IHt; tauto|destruct (N v t); reflexivity]. Qed.
Lemma as_uniform_ok : forall t, wf t -> not_ref t -> outer t <> Vry ->
  exists b, as_uniform t = Some b /\ wf b /\ not_ref b /\ is_void b = is_void t /\ forall d s, completes d b s <-> completes false t s.
Proof.
  induction t; cbn; intros W N U.
  - eexists. repeat split; try congruence; intros; try (intro Q; inversion Q; fail); match goal with Q : completes _ _ _ |- _ => inversion Q; subst end.
    + destruct v; try congruence; cbn; constructor.
    + replace (or_default false v) with (or_default d Uni) by (destruct v; try congruence; reflexivity). constructor.
  - eexists. repeat split; try congruence; intros; match goal with Q : completes _ _ _ |- _ => inversion Q; subst; constructor end.
  - eexists. repeat split; try congruence; auto; intros; match goal with Q : completes _ _ _ |- _ => inversion Q; subst end.
    + destruct v; try congruence; cbn; constructor; assumption.
    + replace (or_default false v) with (or_default d Uni) by (destruct v; try congruence; reflexivity). constructor; assumption.
  - destruct W as [W1 [W2 W3]]. destruct (IHt W1 W3 U) as [b [B1 [B2 [B3 [B4 B5]]]]]. rewrite B1. cbn.
    exists (Arr n b). repeat split; auto; try congruence; intros; try (match goal with Q : completes _ _ _ |- _ => inversion Q; subst; constructor; apply (B5 d); assumption end).
    intros E. destruct b; try discriminate. destruct t; cbn in B4; try discriminate; case (W2 _ eq_refl).
  - destruct (N v t); reflexivity.
  - exists (Fun t ps). repeat split; try tauto; try congruence; intros; match goal with Q : completes _ _ _ |- _ => inversion Q; subst; constructor; assumption end.
Qed.
Lemma as_varying_ok : forall t, wf t -> not_ref t -> outer t <> Uni ->
  exists b, as_varying t = Some b /\ wf b /\ not_ref b /\ is_void b = is_void t /\ forall d s, completes d b s <-> completes true t s.
Proof.
  induction t; cbn; intros W N U.
  - eexists. repeat split; try congruence; intros; match goal with Q : completes _ _ _ |- _ => inversion Q; subst end.
    + destruct v; try congruence; cbn; constructor.
    + replace (or_default true v) with (or_default d Vry) by (destruct v; try congruence; reflexivity). constructor.
  - congruence.
  - eexists. repeat split; try congruence; auto; intros; match goal with Q : completes _ _ _ |- _ => inversion Q; subst end.
    + destruct v; try congruence; cbn; constructor; assumption.
    + replace (or_default true v) with (or_default d Vry) by (destruct v; try congruence; reflexivity). constructor; assumption.
  - destruct W as [W1 [W2 W3]]. destruct (IHt W1 W3 U) as [b [B1 [B2 [B3 [B4 B5]]]]]. rewrite B1. cbn.
    exists (Arr n b). repeat split; auto; try congruence; intros; try (match goal with Q : completes _ _ _ |- _ => inversion Q; subst; constructor; apply (B5 d); assumption end).
    intros E. destruct b; try discriminate. destruct t; cbn in B4; try discriminate; case (W2 _ eq_refl).
  - destruct (N v t); reflexivity.
  - congruence.
Qed.
Lemma as_unbound_ok : forall t, wf t -> not_ref t -> outer t = Unb ->
  exists b, as_unbound t = Some b /\ wf b /\ not_ref b /\ is_void b = is_void t /\ forall d s, completes d b s <-> completes d t s.
Proof.
  induction t; cbn; intros W N U.
  - subst. eexists. repeat split; try congruence; auto.
  - congruence.
  - subst. eexists. repeat split; try congruence; auto.
  - destruct W as [W1 [W2 W3]]. destruct (IHt W1 W3 U) as [b [B1 [B2 [B3 [B4 B5]]]]]. rewrite B1. cbn.
    exists (Arr n b). repeat split; auto; try congruence; intros; try (match goal with Q : completes _ _ _ |- _ => inversion Q; subst; constructor; apply B5; assumption end).
    intros E. destruct b; try discriminate. destruct t; cbn in B4; try discriminate; case (W2 _ eq_refl).
  - destruct (N v t); reflexivity.
  - congruence.
Qed.
Lemma as_const_ok : forall t, wf t -> not_ref t -> wf (as_const t) /\ not_ref (as_const t) /\ is_void (as_const t) = is_void t /\ outer (as_const t) = outer t /\
  (forall d s, completes d (as_const t) s <-> exists u, completes d t u /\ s = constant u).
Proof.
  induction t; intros W N.
  - cbn. repeat split; try congruence.
    + intros Q. inversion Q; subst. eexists; split; [constructor|reflexivity].
    + intros [u [A B]]. inversion A; subst. cbn. constructor.
  - cbn. repeat split; try congruence.
    + intros Q. inversion Q; subst. eexists; split; [constructor|reflexivity].
    + intros [u [A B]]. inversion A; subst. cbn. constructor.
  - cbn. repeat split; try congruence; auto.
    + intros Q. inversion Q; subst. eexists; split; [constructor; eassumption|reflexivity].
    + intros [u [A B]]. inversion A; subst. cbn. constructor; assumption.
  - destruct W as [W1 [W2 W3]]. destruct (IHt W1 W3) as [B1 [B2 [B3 [B4 B5]]]]. cbn. repeat split; try congruence; auto.
    + intros c E. rewrite E in B3. destruct t; cbn in B3; try discriminate; case (W2 _ eq_refl).
    + intros Q. inversion Q; subst. match goal with A : completes _ (as_const t) _ |- _ => apply B5 in A; destruct A as [w [A ->]] end.
      exists (CArr n w). split; [constructor; assumption|reflexivity].
    + intros [u [A B]]. inversion A; subst. cbn. constructor. apply B5. eauto.
  - destruct (N v t); reflexivity.
  - cbn. repeat split; try congruence; try (cbn in W; tauto).
    + intros Q. inversion Q; subst. eexists; split; [constructor; eassumption|reflexivity].
    + intros [u [A B]]. inversion A; subst. cbn. constructor; assumption.
Qed.
Lemma completes_outer : forall t, wf t -> not_ref t -> outer t <> Unb -> forall d d' s, completes d t s -> completes d' t s.
Proof.
  induction t; cbn; intros W N U d d' s Q; try (inversion Q; subst; constructor; auto; fail).
  - inversion Q; subst. replace (or_default d v) with (or_default d' v) by (destruct v; try congruence; reflexivity). constructor.
  - inversion Q; subst. replace (or_default d v) with (or_default d' v) by (destruct v; try congruence; reflexivity). constructor; auto.
  - inversion Q; subst. constructor. apply (IHt (proj1 W) (proj2 (proj2 W)) U d); assumption.
  - destruct (N v t); reflexivity.
Qed.

Definition wf_env (e : env) : Prop := forall x t, lookup e x = Some t -> wf t.

Lemma in_types : forall a l, In a (types_in l) <-> In a l /\ match a with SQual _ => False | _ => True end.
Proof. intros a l. unfold types_in. rewrite filter_In. destruct a; intuition discriminate. Qed.
Lemma named_base : forall e l t, type_named e l t <-> exists b, base_of e l = Some b /\ t = match b with Some t => t | None => Atom Unb false 0 end.
Proof.
  intros e l t. unfold type_named, base_of. destruct (types_in l) as [|a [|a' r]] eqn:E.
  - split; [intros ->; exists None; auto|intros [b [A B]]; inversion A; subst; reflexivity].
  - assert (IA : In a (types_in l)) by (rewrite E; left; reflexivity). apply in_types in IA. destruct IA as [_ IA].
    destruct a as [b| |x|q]; cbn; [| | |contradiction].
    + split; [intros ->; eexists; eauto|intros [w [A B]]; inversion A; subst; reflexivity].
    + split; [intros ->; eexists; eauto|intros [w [A B]]; inversion A; subst; reflexivity].
    + destruct (lookup e x) as [u|]; cbn.
      * split; [intros Q; inversion Q; subst; eexists; eauto|intros [w [A B]]; inversion A; subst; reflexivity].
      * split; [discriminate|intros [w [A B]]; discriminate].
  - split; [destruct a; contradiction|intros [w [A B]]; discriminate].
Qed.
Lemma snoc_cases : forall {A} (l : list A), l <> [] -> exists l' a, l = l' ++ [a].
Proof. intros A l H. destruct (exists_last H) as [l' [a E]]. eauto. Qed.
Lemma last_var_snoc : forall e l a, last_var e (l ++ [a]) = match spec_type e a with Some (t, true) => var_of t | _ => Unb end.
Proof. intros. unfold last_var. rewrite rev_app_distr. reflexivity. Qed.
Lemma types_snoc : forall l a, types_in (l ++ [a]) = types_in l ++ types_in [a].
Proof. intros. apply filter_app. Qed.
Lemma named_facts : forall e l t, wf_env e -> ok_specs e l -> type_named e l t ->
  wf t /\ not_ref t /\ ((is_void t = false /\ last_var e l = outer t) \/ (t = Void false /\ last_var e l = Unb)).
Proof.
  intros e l t WE [NE [NV OK]] T. destruct (snoc_cases l NE) as [l' [a E]].
  unfold type_named in T.
  assert (LN : forall x, types_in l = [SName x] -> lookup e x = Some t -> wf t /\ not_ref t /\ is_void t = false /\ last_var e l = outer t).
  { intros x TX LX. assert (IX : In (SName x) l) by (assert (In (SName x) (types_in l)) by (rewrite TX; left; reflexivity); apply in_types in H; tauto).
    destruct (OK x t IX LX) as [O1 [O2 O3]]. assert (W : wf t) by (apply (WE x); exact LX). repeat split; auto.
    - destruct t; try reflexivity. destruct (O1 c); reflexivity.
    - subst l. rewrite last_var_snoc. destruct a as [b| |y|q]; cbn.
      + rewrite types_snoc in TX. cbn in TX. destruct (types_in l') as [|z [|? ?]]; cbn in TX; inversion TX.
      + rewrite types_snoc in TX. cbn in TX. destruct (types_in l') as [|z [|? ?]]; cbn in TX; inversion TX.
      + rewrite types_snoc in TX. cbn in TX. destruct (types_in l') as [|z [|? ?]]; cbn in TX; inversion TX; subst. rewrite LX. cbn. apply var_outer; auto.
      + destruct O3 as [O3|[m O3]]; [auto|]. apply app_inj_tail in O3. destruct O3; discriminate. }
  destruct (types_in l) as [|a0 [|a1 r]] eqn:ET.
  - subst t. split; [exact I|]. split; [congruence|]. left. split; [reflexivity|]. subst l. rewrite last_var_snoc. rewrite types_snoc in ET.
    destruct a; cbn in ET; try (destruct (types_in l'); discriminate). reflexivity.
  - destruct a0 as [b| |x|q]; [| | |contradiction].
    + subst t. split; [exact I|]. split; [congruence|]. left. split; [reflexivity|]. subst l. rewrite last_var_snoc. rewrite types_snoc in ET.
      destruct a as [c| |y|]; cbn; try reflexivity; [rewrite NV; reflexivity|]. cbn in ET. destruct (types_in l') as [|z [|? ?]]; cbn in ET; inversion ET.
    + subst t. split; [exact I|]. split; [congruence|]. right. split; [reflexivity|]. subst l. rewrite last_var_snoc. rewrite types_snoc in ET.
      destruct a as [c| |y|]; cbn; try reflexivity; [rewrite NV; reflexivity|]. cbn in ET. destruct (types_in l') as [|z [|? ?]]; cbn in ET; inversion ET.
    + destruct (LN x eq_refl T) as [A [B [C D]]]. auto.
  - destruct a0; contradiction.
Qed.
Lemma named_unique : forall e l t u, type_named e l t -> type_named e l u -> t = u.
Proof. intros e l t u A B. apply named_base in A. apply named_base in B. destruct A as [a [A ->]]. destruct B as [b [B ->]]. rewrite A in B; inversion B; reflexivity. Qed.

(** Without the specifiers' names: the type, and what the qualifiers do. *)
Lemma quals_ok : forall C U V lv t, wf t -> not_ref t -> (is_void t = false /\ lv = outer t) \/ (t = Void false /\ lv = Unb) ->
  (U = true -> is_void t = false /\ outer t <> Vry) -> (V = true -> is_void t = false /\ outer t <> Uni) -> ~ (U = true /\ V = true) ->
  exists b, apply_quals (Q C (U || is_var lv Uni) (V || is_var lv Vry)) t = Some b /\ wf b /\ not_ref b /\
    forall d s, completes d b s <-> exists u, completes (if U then false else if V then true else d) t u /\ s = if C then constant u else u.
Proof.
  intros C U V lv t W N L HU HV UV.
  set (t1 := if C then as_const t else t).
  assert (T1 : wf t1 /\ not_ref t1 /\ is_void t1 = is_void t /\ outer t1 = outer t /\ forall d s, completes d t1 s <-> exists u, completes d t u /\ s = if C then constant u else u).
  { unfold t1. destruct C; [apply as_const_ok; auto|]. repeat split; auto; [eauto|]. intros [u [A ->]]. exact A. }
  destruct T1 as [T1 [T2 [T3 [T4 T5]]]].
  unfold apply_quals. cbn [qc qu qv]. fold t1. rewrite T3.
  destruct L as [[L1 L2]|[L1 L2]].
  - rewrite L1. subst lv.
    assert (CU : (U = true \/ outer t = Uni) -> V = false -> exists b, as_uniform t1 = Some b /\ wf b /\ not_ref b /\ forall d s, completes d b s <-> exists u, completes (if U then false else if V then true else d) t u /\ s = if C then constant u else u).
    { intros H HV'. destruct (as_uniform_ok t1 T1 T2) as [b [B1 [B2 [B3 [B4 B5]]]]].
      - rewrite T4. destruct H as [H|H]; [apply HU; auto|congruence].
      - exists b. repeat split; auto.
        + intros Q. apply B5 in Q. apply T5 in Q. destruct Q as [u [Q1 Q2]]. exists u. split; auto. subst V. destruct U; auto. destruct H as [H|H]; [discriminate|]. apply (completes_outer t W N ltac:(congruence) false); auto.
        + intros [u [Q1 Q2]]. apply B5. apply T5. exists u. split; auto. subst V. destruct U; auto. destruct H as [H|H]; [discriminate|]. apply (completes_outer t W N ltac:(congruence) d); auto. }
    assert (CV : (V = true \/ outer t = Vry) -> U = false -> exists b, as_varying t1 = Some b /\ wf b /\ not_ref b /\ forall d s, completes d b s <-> exists u, completes (if U then false else if V then true else d) t u /\ s = if C then constant u else u).
    { intros H HU'. destruct (as_varying_ok t1 T1 T2) as [b [B1 [B2 [B3 [B4 B5]]]]].
      - rewrite T4. destruct H as [H|H]; [apply HV; auto|congruence].
      - exists b. repeat split; auto.
        + intros Q. apply B5 in Q. apply T5 in Q. destruct Q as [u [Q1 Q2]]. exists u. split; auto. subst U. destruct V; auto. destruct H as [H|H]; [discriminate|]. apply (completes_outer t W N ltac:(congruence) true); auto.
        + intros [u [Q1 Q2]]. apply B5. apply T5. exists u. split; auto. subst U. destruct V; auto. destruct H as [H|H]; [discriminate|]. apply (completes_outer t W N ltac:(congruence) d); auto. }
    destruct U, V; [destruct UV; auto| | |].
    + destruct (HU eq_refl) as [_ HU']. destruct (outer t) eqn:EO; try congruence; cbn; apply CU; auto.
    + destruct (HV eq_refl) as [_ HV']. destruct (outer t) eqn:EO; try congruence; cbn; apply CV; auto.
    + destruct (outer t) eqn:EO; cbn.
      * destruct (as_unbound_ok t1 T1 T2) as [b [B1 [B2 [B3 [B4 B5]]]]]; [congruence|]. exists b. repeat split; auto; intros.
        -- apply T5. apply B5. assumption.
        -- apply B5. apply T5. assumption.
      * apply CU; auto.
      * apply CV; auto.
  - subst t lv. destruct U; [destruct (HU eq_refl); discriminate|]. destruct V; [destruct (HV eq_refl); discriminate|]. cbn.
    exists t1. repeat split; auto; apply T5.
Qed.
Lemma quals_none : forall C U V lv t, wf t -> not_ref t -> (is_void t = false /\ lv = outer t) \/ (t = Void false /\ lv = Unb) ->
  forall b, apply_quals (Q C (U || is_var lv Uni) (V || is_var lv Vry)) t = Some b ->
  (U = true -> is_void t = false /\ outer t <> Vry) /\ (V = true -> is_void t = false /\ outer t <> Uni) /\ ~ (U = true /\ V = true).
Proof.
  intros C U V lv t W N L b A. unfold apply_quals in A. cbn [qc qu qv] in A.
  assert (IV : is_void (if C then as_const t else t) = is_void t) by (destruct C; [destruct t; reflexivity|reflexivity]). rewrite IV in A.
  destruct L as [[L1 L2]|[L1 L2]]; subst.
  - rewrite L1 in A. destruct U, V, (outer t); cbn in A; repeat split; try congruence; try (intros [? ?]; congruence).
  - cbn in A. destruct U, V; cbn in A; repeat split; try congruence; try (intros [? ?]; congruence).
Qed.

Theorem base_ok : forall e l, wf_env e -> ok_specs e l ->
  (forall b, base_type e l = Some b -> wf b /\ not_ref b /\ forall d s, completes d b s <-> base_is e l d s) /\
  (forall d s, base_is e l d s -> exists b, base_type e l = Some b).
Proof.
  intros e l WE OK. unfold base_type. rewrite specs_of_spec by (apply OK).
  split.
  - intros b B. destruct (base_of e l) as [ob|] eqn:EB; [|discriminate]. cbn [d_quals d_base] in B.
    set (t := match ob with Some t => t | None => Atom Unb false 0 end) in *.
    assert (TN : type_named e l t) by (apply named_base; eauto).
    destruct (named_facts e l t WE OK TN) as [W [N L]].
    destruct (quals_none _ _ _ _ t W N L b B) as [HU [HV UV]].
    destruct (quals_ok (has QConst l) (has QUniform l) (has QVarying l) _ t W N L HU HV UV) as [b' [B1 [B2 [B3 B4]]]].
    rewrite B1 in B. inversion B; subst b'. clear B. repeat split; auto.
    + intros Q. apply B4 in Q. destruct Q as [u [Q1 Q2]]. exists t, u. repeat split; auto.
      * intros [A1 A2]. apply UV. split; apply has_in; auto.
      * apply HU. apply has_in. assumption.
      * apply HU. apply has_in. assumption.
      * apply HV. apply has_in. assumption.
      * apply HV. apply has_in. assumption.
      * intros d' D1 D2 D3. replace d' with (if has QUniform l then false else if has QVarying l then true else d); auto.
        destruct (has QUniform l) eqn:E1; [symmetry; apply D1; apply has_in; auto|]. destruct (has QVarying l) eqn:E2; [symmetry; apply D2; apply has_in; auto|].
        symmetry. apply D3; rewrite <- has_in; congruence.
      * intros A. apply has_in in A. rewrite A in Q2. exact Q2.
      * intros A. rewrite <- has_in in A. destruct (has QConst l); [congruence|exact Q2].
    + intros [t' [u [T1 [T2 [T3 [T4 [T5 [T6 T7]]]]]]]]. assert (t' = t) by (eapply named_unique; eauto). subst t'.
      apply B4. exists u. split.
      * apply T5.
        -- intros A. apply has_in in A. rewrite A. reflexivity.
        -- intros A. apply has_in in A. rewrite A. destruct (has QUniform l) eqn:E; [|reflexivity]. destruct UV; auto.
        -- intros A1 A2. rewrite <- has_in in A1, A2. destruct (has QUniform l); [congruence|]. destruct (has QVarying l); [congruence|reflexivity].
      * destruct (has QConst l) eqn:E; [apply T6; apply has_in; auto|apply T7; rewrite <- has_in; congruence].
  - intros d s [t [u [T1 [T2 [T3 [T4 [T5 [T6 T7]]]]]]]].
    destruct (named_facts e l t WE OK T1) as [W [N L]]. apply named_base in T1. destruct T1 as [ob [T1 T1']]. rewrite T1. cbn [d_quals d_base]. rewrite <- T1'.
    destruct (quals_ok (has QConst l) (has QUniform l) (has QVarying l) _ t W N L) as [b' [B1 _]].
    + intros A. apply has_in in A. auto.
    + intros A. apply has_in in A. auto.
    + intros [A1 A2]. apply has_in in A1. apply has_in in A2. auto.
    + eauto.
Qed.
