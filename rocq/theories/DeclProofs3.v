(** Proofs about declarators. *)
From Coq Require Import ZArith List Bool Arith Lia Permutation.
From Verif Require Import DeclModel DeclSpec DeclProofs DeclProofs2.
Import ListNotations.

Scheme dtor_ind2 := Induction for dtor Sort Prop with dparams_ind2 := Induction for dparams Sort Prop.
Combined Scheme dtor_mut from dtor_ind2, dparams_ind2.
Scheme decl_ind5 := Induction for decl Sort Prop with direct_ind5 := Induction for direct Sort Prop with abst_ind5 := Induction for abst Sort Prop
  with dabst_ind5 := Induction for dabst Sort Prop with params_ind5 := Induction for params Sort Prop.
Combined Scheme decl_mut from decl_ind5, direct_ind5, abst_ind5, dabst_ind5, params_ind5.

(** ** Everything the compiler builds is well-formed *)
Lemma bound_resolve : forall t, bound t -> forall v, v <> Unb -> bound (resolve v t).
Proof.
  induction t using ty_induction; intros B w W; cbn [resolve].
  - cbn in *. destruct v; cbn; congruence.
  - exact I.
  - cbn in *. destruct B as [B1 B2]. split; [destruct v; cbn; congruence|]. apply IHt; auto; discriminate.
  - apply IHt; auto.
  - apply IHt; auto.
  - apply bound_fun in B. destruct B as [B1 B2]. apply bound_fun. split; [auto|]. clear IHt. induction H; cbn; constructor; inversion B2; subst; auto.
Qed.
Lemma resolve_not : forall v t, (not_ref t -> not_ref (resolve v t)) /\ (not_void t -> not_void (resolve v t)) /\ (not_fun t -> not_fun (resolve v t)).
Proof. intros v t. unfold not_ref, not_void, not_fun. destruct t; cbn; repeat split; intros; try congruence; exfalso; eapply H; reflexivity. Qed.
Lemma resolve_wf : forall t, wf t -> forall v, v <> Unb -> wf (resolve v t).
Proof.
  induction t using ty_induction; intros W v' NV; cbn in *; auto.
  - apply IHt; auto; discriminate.
  - destruct W as [W1 [W2 W3]]. pose proof (resolve_not v' t) as [R1 [R2 R3]]. auto.
  - destruct W as [W1 W2]. pose proof (resolve_not v' t) as [R1 [R2 R3]]. auto.
  - destruct W as [W1 [W2 [W3 W4]]]. pose proof (resolve_not v' t) as [R1 [R2 R3]]. repeat split; auto.
    + apply bound_resolve; auto.
    + clear - W4 NV. induction W4; cbn; constructor; auto. apply bound_resolve; auto.
Qed.
Definition same_kind (t b : ty) : Prop := (not_ref t -> not_ref b) /\ (not_void t -> not_void b).
Lemma kind_uniform : forall t b, as_uniform t = Some b -> same_kind t b.
Proof.
  unfold same_kind, not_ref, not_void. intros t b H. destruct t; cbn in H; try (inversion H; subst; split; intros; congruence).
  - destruct (as_uniform t); inversion H; subst; split; intros; congruence.
  - split; [intros A; destruct (A v t); reflexivity|]. destruct (is_var v Uni); [inversion H; congruence|]. destruct (as_uniform t); inversion H; congruence.
Qed.
Lemma kind_varying : forall t b, as_varying t = Some b -> same_kind t b.
Proof.
  unfold same_kind, not_ref, not_void. intros t b H. destruct t; cbn in H; try (inversion H; subst; split; intros; congruence).
  - destruct (as_varying t); inversion H; subst; split; intros; congruence.
  - split; [intros A; destruct (A v t); reflexivity|]. destruct (is_var v Vry); [inversion H; congruence|]. destruct (as_varying t); inversion H; congruence.
Qed.
Lemma kind_unbound : forall t b, as_unbound t = Some b -> same_kind t b.
Proof.
  unfold same_kind, not_ref, not_void. intros t b H. destruct t; cbn in H; try (inversion H; subst; split; intros; congruence).
  - destruct (as_unbound t); inversion H; subst; split; intros; congruence.
  - split; [intros A; destruct (A v t); reflexivity|]. destruct (is_var v Unb); [inversion H; congruence|]. destruct (as_unbound t); inversion H; congruence.
Qed.
Lemma kind_const : forall t, same_kind t (as_const t).
Proof.
  unfold same_kind, not_ref, not_void. intros t. destruct t; cbn; split; intros; try congruence; exfalso; eapply H; reflexivity.
Qed.
Lemma uniform_wf : forall t b, wf t -> as_uniform t = Some b -> wf b.
Proof.
  induction t; intros b' W H; cbn in H; try (inversion H; subst; exact I); try (inversion H; subst; exact W).
  - destruct W as [W1 [W2 W3]]. destruct (as_uniform t) eqn:E; [|discriminate]. inversion H; subst. pose proof (kind_uniform _ _ E) as [K1 K2]. cbn. auto.
  - destruct W as [W1 W2]. destruct (is_var v Uni); [inversion H; subst; cbn; auto|]. destruct (as_uniform t) eqn:E; [|discriminate]. inversion H; subst. pose proof (kind_uniform _ _ E) as [K1 K2]. cbn. auto.
Qed.
Lemma varying_wf : forall t b, wf t -> as_varying t = Some b -> wf b.
Proof.
  induction t; intros b' W H; cbn in H; try (inversion H; subst; exact I); try (inversion H; subst; exact W).
  - destruct W as [W1 [W2 W3]]. destruct (as_varying t) eqn:E; [|discriminate]. inversion H; subst. pose proof (kind_varying _ _ E) as [K1 K2]. cbn. auto.
  - destruct W as [W1 W2]. destruct (is_var v Vry); [inversion H; subst; cbn; auto|]. destruct (as_varying t) eqn:E; [|discriminate]. inversion H; subst. pose proof (kind_varying _ _ E) as [K1 K2]. cbn. auto.
Qed.
Lemma unbound_wf : forall t b, wf t -> as_unbound t = Some b -> wf b.
Proof.
  induction t; intros b' W H; cbn in H; try (inversion H; subst; exact I); try (inversion H; subst; exact W).
  - destruct W as [W1 [W2 W3]]. destruct (as_unbound t) eqn:E; [|discriminate]. inversion H; subst. pose proof (kind_unbound _ _ E) as [K1 K2]. cbn. auto.
  - destruct W as [W1 W2]. destruct (is_var v Unb); [inversion H; subst; cbn; auto|]. destruct (as_unbound t) eqn:E; [|discriminate]. inversion H; subst. pose proof (kind_unbound _ _ E) as [K1 K2]. cbn. auto.
Qed.
Lemma const_wf : forall t, wf t -> wf (as_const t).
Proof.
  induction t; intros W; cbn in *; auto.
  - destruct W as [W1 [W2 W3]]. pose proof (kind_const t) as [K1 K2]. auto.
  - destruct W as [W1 W2]. pose proof (kind_const t) as [K1 K2]. auto.
Qed.
Lemma quals_wf : forall q t b, wf t -> apply_quals q t = Some b -> wf b.
Proof.
  intros q t b W H. unfold apply_quals in H.
  assert (W1 : wf (if qc q then as_const t else t)) by (destruct (qc q); [apply const_wf; exact W|exact W]).
  revert H W1. generalize (if qc q then as_const t else t). intros u H W1.
  destruct (qu q && qv q); [discriminate|]. destruct (qu q).
  - destruct (is_void u); [discriminate|]. eapply uniform_wf; eauto.
  - destruct (qv q).
    + destruct (is_void u); [discriminate|]. eapply varying_wf; eauto.
    + destruct (is_void u); [inversion H; subst; exact W1|]. eapply unbound_wf; eauto.
Qed.
Lemma base_wf : forall e l b, wf_env e -> base_type e l = Some b -> wf b.
Proof.
  intros e l b WE H. destruct l as [|a r]; [discriminate|]. unfold base_type in H. rewrite specs_of_spec in H by discriminate.
  destruct (base_of e (a :: r)) as [ob|] eqn:E; [|discriminate]. cbn [d_quals d_base] in H. eapply quals_wf; [|exact H].
  unfold base_of in E. destruct (types_in (a :: r)) as [|x [|y z]]; [inversion E; exact I| |discriminate].
  destruct (spec_type e x) as [[t c]|] eqn:ES; [|discriminate]. inversion E; subst. destruct x; cbn in ES; try (inversion ES; subst; exact I).
  destruct (lookup e x) eqn:EL; [|discriminate]. inversion ES; subst. apply (WE x). exact EL.
Qed.
Lemma parameter_bound : forall t u, wf t -> parameter t = Some u -> bound u.
Proof.
  intros t u W H. unfold parameter in H. pose proof (resolve_is_bound t W Vry ltac:(discriminate)) as B.
  destruct (resolve Vry t); try (inversion H; subst; exact B).
  - destruct (sized t0); [|discriminate]. inversion H; subst. split; [discriminate|exact B].
Qed.
Lemma init_wf : forall e, wf_env e ->
  (forall d base t, wf base -> init e d base = Some t -> wf t) /\ (forall ps ts, init_params e ps = Some ts -> Forall bound ts).
Proof.
  intros e WE. apply dtor_mut.
  - intros base t W H. discriminate.
  - intros base t W H. inversion H; subst. exact W.
  - intros q child IH base t W H. cbn [init] in H. destruct (qu q && qv q); [discriminate|].
    destruct child; try (eapply IH; [|exact H]; exact W). inversion H; subst. exact W.
  - intros child IH base t W H. cbn [init] in H.
    assert (HB : not_ref base /\ match child with DNull => Some (Ref (var_of base) base) | _ => init e child (Ref (var_of base) base) end = Some t) by
      (split; [intros v u E; subst; discriminate|destruct base; try exact H; discriminate]).
    clear H. destruct HB as [N H]. assert (W' : wf (Ref (var_of base) base)) by (split; auto).
    destruct child; try (eapply IH; [|exact H]; exact W'). inversion H; subst. exact W'.
  - intros n child IH base t W H. cbn [init] in H.
    assert (HB : (not_ref base /\ not_void base) /\ match child with DNull => Some (Arr n base) | _ => init e child (Arr n base) end = Some t).
    { split; [split; [intros v u E|intros c E]; subst; discriminate|destruct base; try exact H; discriminate]. }
    clear H. destruct HB as [[N1 N2] H]. assert (W' : wf (Arr n base)) by (cbn; auto).
    destruct child; try (eapply IH; [|exact H]; exact W'). inversion H; subst. exact W'.
  - intros ps IHp child IH base t W H. cbn [init] in H. destruct (init_params e ps) as [ts|] eqn:E; [|discriminate].
    assert (N : not_fun base) by (intros r us ->; discriminate).
    assert (H' : init e child (Fun (resolve Vry base) ts) = Some t) by (destruct base; try discriminate; destruct child; try discriminate; exact H).
    eapply IH; [|exact H']. cbn. repeat split.
    + apply resolve_wf; auto; discriminate.
    + apply resolve_not. exact N.
    + apply resolve_is_bound; auto; discriminate.
    + apply IHp. reflexivity.
  - intros ts H. inversion H; subst. constructor.
  - intros s d IH r IHr ts H. cbn [init_params] in H. destruct (base_type e s) as [b|] eqn:EB; [|discriminate].
    destruct (init e d b) as [t|] eqn:ET; [|discriminate]. destruct (parameter t) as [u|] eqn:EP; [|discriminate].
    destruct (init_params e r) as [us|] eqn:ER; [|discriminate]. inversion H; subst. constructor; [|apply IHr; reflexivity].
    eapply parameter_bound; [|exact EP]. eapply IH; [|exact ET]. eapply base_wf; eauto.
Qed.
Lemma written_wf : forall e l d t, wf_env e -> written e l d = Some t -> wf t.
Proof.
  intros e l d t WE H. unfold written in H. destruct (base_type e l) as [b|] eqn:E; [|discriminate].
  eapply (proj1 (init_wf e WE)); [|exact H]. eapply base_wf; eauto.
Qed.
Lemma typedefs_wf : forall l e e', wf_env e -> typedefs l e = Some e' -> wf_env e'.
Proof.
  induction l as [|[[x s] d] r IH]; intros e e' WE H; cbn in H; [inversion H; subst; exact WE|].
  destruct (lookup e x); [discriminate|]. destruct (written e s d) as [t|] eqn:E; [|discriminate].
  eapply IH; [|exact H]. intros y u L. cbn in L. destruct (y =? x); [inversion L; subst; eapply written_wf; eauto|apply (WE y); exact L].
Qed.

Lemma pointers_null : forall qs q tl, pointers q qs tl <> DNull.
Proof. destruct qs; discriminate. Qed.
Fixpoint obj_null (d : decl) : obj_decl d <> DNull
with obj_direct_null (d : direct) : obj_direct d <> DNull.
Proof.
  - destruct d; cbn; [apply obj_direct_null|apply pointers_null|discriminate].
  - destruct d; cbn; [discriminate|apply obj_null|discriminate|discriminate].
Qed.
Lemma init_ptr : forall e q child base, child <> DNull -> init e (DPtr q child) base = if qu q && qv q then None else init e child (Ptr (qvar q) (qc q) base).
Proof. intros. cbn [init]. destruct (qu q && qv q); [reflexivity|]. destruct child; congruence. Qed.
Lemma init_ref : forall e child base, child <> DNull -> init e (DRef child) base = match base with Ref _ _ => None | _ => init e child (Ref (var_of base) base) end.
Proof. intros. cbn [init]. destruct base; try reflexivity; destruct child; congruence. Qed.
Lemma init_arr : forall e n child base, child <> DNull -> init e (DArr n child) base = match base with Void _ | Ref _ _ => None | _ => init e child (Arr n base) end.
Proof. intros. cbn [init]. destruct base; try reflexivity; destruct child; congruence. Qed.
Lemma init_fun : forall e ps child base, child <> DNull -> init e (DFun ps child) base =
  match init_params e ps with None => None | Some ts => match base with Fun _ _ => None | _ => init e child (Fun (resolve Vry base) ts) end end.
Proof. intros. cbn [init]. destruct (init_params e ps); [|reflexivity]. destruct base; try reflexivity; destruct child; congruence. Qed.
Lemma init_pointers : forall e qs q base, init e (pointers q qs DNull) base = init e (pointers q qs DBase) base.
Proof.
  induction qs as [|q' r IH]; intros q base; [cbn; reflexivity|]. cbn [pointers]. rewrite !init_ptr by apply pointers_null. rewrite IH. reflexivity.
Qed.
Lemma init_named : forall e,
  (forall a, kept_abst e a -> obj_abst a <> DNull /\ forall base, init e (obj_abst a) base = init e (obj_decl (named a)) base) /\
  (forall d, kept_dabst e d -> obj_dabst d <> DNull /\ forall base, init e (obj_dabst d) base = init e (obj_direct (named_d d)) base).
Proof.
  intros e.
  assert (H : (forall d : decl, True) /\ (forall d : direct, True) /\
    (forall a, kept_abst e a -> obj_abst a <> DNull /\ forall base, init e (obj_abst a) base = init e (obj_decl (named a)) base) /\
    (forall d, kept_dabst e d -> obj_dabst d <> DNull /\ forall base, init e (obj_dabst d) base = init e (obj_direct (named_d d)) base) /\
    (forall p : params, True)); [|tauto].
  apply decl_mut; auto; cbn [obj_abst obj_dabst named named_d obj_decl obj_direct kept_abst kept_dabst].
  - intros q qs _. split; [apply pointers_null|]. intros. apply init_pointers.
  - intros q qs d IH [-> [-> K]]. destruct (IH K) as [N E]. split; [discriminate|]. intros base. cbn [pointers]. rewrite !init_ptr by (auto; apply obj_direct_null). cbn. apply E.
  - intros _. split; [discriminate|]. reflexivity.
  - intros d IH K. destruct (IH K) as [N E]. split; [discriminate|]. intros base. rewrite !init_ref by (auto; apply obj_direct_null). destruct base; auto.
  - intros n _. split; [discriminate|]. reflexivity.
  - intros d IH n K. destruct (IH K) as [N E]. split; [discriminate|]. intros base. rewrite !init_arr by (auto; apply obj_direct_null). destruct base; auto.
  - intros p IH [].
  - intros d IH ps _ [K _]. destruct (IH K) as [N E]. split; [discriminate|]. intros base. rewrite !init_fun by (auto; apply obj_direct_null).
    destruct (init_params e (obj_params ps)); auto. destruct base; auto.
Qed.

(** ** Types that complete a well-formed type are legal *)
Lemma completes_legal : forall t d s, wf t -> completes d t s -> legal s.
Proof.
  induction t using ty_induction; intros d s W Q; cbn in W; inversion Q; subst; try constructor; eauto.
  - destruct W; eauto.
  - intros c E. subst. destruct W as [_ [W _]]. match goal with A : completes _ t _ |- _ => inversion A; subst end. exact (W _ eq_refl).
  - intros c E. subst. destruct W as [_ [_ W]]. match goal with A : completes _ t _ |- _ => inversion A; subst end. exact (W _ _ eq_refl).
  - destruct W; eauto.
  - intros c E. subst. destruct W as [_ W]. match goal with A : completes _ t _ |- _ => inversion A; subst end. exact (W _ _ eq_refl).
  - destruct W; eauto.
  - intros c us' E. subst. destruct W as [_ [W _]]. match goal with A : completes _ t _ |- _ => inversion A; subst end. exact (W _ _ eq_refl).
Qed.
Lemma all_sized_ok : forall t s, stands_for t s -> (sized t = true <-> all_sized s).
Proof.
  induction t; intros s Q; inversion Q; subst; cbn; try tauto.
  match goal with A : stands_for t _ |- _ => pose proof (IHt _ A) as IH end. rewrite andb_true_iff, IH, negb_true_iff, Nat.eqb_neq. tauto.
Qed.
Lemma consistent_iff : forall q, qu q && qv q = false <-> consistent q.
Proof. intros q. unfold consistent. destruct (qu q), (qv q); cbn; intuition congruence. Qed.

(** ** Soundness and completeness *)
Section Env.
  Variable e : env.
  Hypothesis WE : wf_env e.
  Definition good_d (D : decl) : Prop :=
    (forall base t d0 s, wf base -> init e (obj_decl D) base = Some t -> completes d0 t s -> exists d' s', reads e D s d0 s' d' /\ completes d' base s') /\
    (forall base d0 s d' s', wf base -> legal s -> reads e D s d0 s' d' -> completes d' base s' -> exists t, init e (obj_decl D) base = Some t /\ completes d0 t s) /\
    (forall d0 s d' s', reads e D s d0 s' d' -> legal s -> legal s').
  Definition good_r (D : direct) : Prop :=
    (forall base t d0 s, wf base -> init e (obj_direct D) base = Some t -> completes d0 t s -> exists d' s', reads_direct e D s d0 s' d' /\ completes d' base s') /\
    (forall base d0 s d' s', wf base -> legal s -> reads_direct e D s d0 s' d' -> completes d' base s' -> exists t, init e (obj_direct D) base = Some t /\ completes d0 t s) /\
    (forall d0 s d' s', reads_direct e D s d0 s' d' -> legal s -> legal s').
  Definition good_p (p : params) : Prop :=
    (forall ts us, init_params e (obj_params p) = Some ts -> Forall2 stands_for ts us -> reads_params e p us) /\
    (forall us, reads_params e p us -> exists ts, init_params e (obj_params p) = Some ts /\ Forall2 stands_for ts us).

  Lemma step_dir : forall D, good_r D -> good_d (Dir D).
  Proof.
    intros D [S [C L]]. split; [|split].
    - intros base t d0 s W H Q. destruct (S base t d0 s W H Q) as [d' [s' [R B]]]. exists d', s'. split; [constructor; exact R|exact B].
    - intros base d0 s d' s' W LS R B. inversion R; subst. eauto.
    - intros d0 s d' s' R LS. inversion R; subst. eauto.
  Qed.
  Lemma step_id : good_r Id.
  Proof.
    split; [|split].
    - intros base t d0 s W H Q. inversion H; subst. exists d0, s. split; [constructor|exact Q].
    - intros base d0 s d' s' W LS R B. inversion R; subst. cbn. eauto.
    - intros d0 s d' s' R LS. inversion R; subst. exact LS.
  Qed.
  Lemma step_paren : forall D, good_d D -> good_r (Paren D).
  Proof.
    intros D [S [C L]]. split; [|split].
    - intros base t d0 s W H Q. destruct (S base t d0 s W H Q) as [d' [s' [R B]]]. exists d', s'. split; [constructor; exact R|exact B].
    - intros base d0 s d' s' W LS R B. inversion R; subst. cbn. eauto.
    - intros d0 s d' s' R LS. inversion R; subst. eauto.
  Qed.
  Lemma step_ptr : forall D q qs, good_r D -> good_d (PtrD q qs D).
  Proof.
    intros D q qs [S [C L]]. revert q. induction qs as [|q' qs IH]; intros q.
    - split; [|split].
      + intros base t d0 s W H Q. cbn [obj_decl pointers] in H. rewrite init_ptr in H by apply obj_direct_null. destruct (qu q && qv q) eqn:EQ; [discriminate|].
        destruct (S (Ptr (qvar q) (qc q) base) t d0 s W H Q) as [d' [s' [R B]]]. inversion B; subst. exists false, u. split; [|assumption].
        apply r_ptr with (d' := d'); [apply consistent_iff; exact EQ|exact R].
      + intros base d0 s d' s' W LS R B. inversion R; subst. cbn [obj_decl pointers]. rewrite init_ptr by apply obj_direct_null.
        match goal with A : consistent q |- _ => apply consistent_iff in A; rewrite A end. eapply C; [exact W|exact LS|eassumption|]. constructor. exact B.
      + intros d0 s d' s' R LS. inversion R; subst. match goal with A : reads_direct _ _ _ _ _ _ |- _ => apply L in A; auto; inversion A; subst; assumption end.
    - destruct (IH q') as [S' [C' L']]. split; [|split].
      + intros base t d0 s W H Q. cbn [obj_decl pointers] in H. rewrite init_ptr in H by apply pointers_null. destruct (qu q && qv q) eqn:EQ; [discriminate|].
        destruct (S' (Ptr (qvar q) (qc q) base) t d0 s W H Q) as [d' [s' [R B]]]. inversion B; subst. exists false, u. split; [|assumption].
        apply r_ptrs with (d' := d'); [apply consistent_iff; exact EQ|exact R].
      + intros base d0 s d' s' W LS R B. inversion R; subst. cbn [obj_decl pointers]. rewrite init_ptr by apply pointers_null.
        match goal with A : consistent q |- _ => apply consistent_iff in A; rewrite A end. eapply C'; [exact W|exact LS|eassumption|]. constructor. exact B.
      + intros d0 s d' s' R LS. inversion R; subst. match goal with A : reads _ _ _ _ _ _ |- _ => apply L' in A; auto; inversion A; subst; assumption end.
  Qed.
  Lemma step_ref : forall D, good_r D -> good_d (RefD D).
  Proof.
    intros D [S [C L]]. split; [|split].
    - intros base t d0 s W H Q. cbn [obj_decl] in H. rewrite init_ref in H by apply obj_direct_null.
      assert (HB : not_ref base /\ init e (obj_direct D) (Ref (var_of base) base) = Some t) by (split; [intros v u E; subst; discriminate|destruct base; try exact H; discriminate]).
      destruct HB as [N HB]. destruct (S (Ref (var_of base) base) t d0 s (conj W N) HB Q) as [d' [s' [R B]]]. inversion B; subst. exists d', u. split; [constructor; exact R|assumption].
    - intros base d0 s d' s' W LS R B. inversion R; subst. cbn [obj_decl]. rewrite init_ref by apply obj_direct_null.
      match goal with A : reads_direct _ _ _ _ _ _ |- _ => pose proof (L _ _ _ _ A LS) as LR; rename A into RD end. inversion LR; subst.
      assert (N : not_ref base) by (intros v u ->; inversion B; subst; match goal with A : forall u, _ <> CRef u |- _ => exact (A _ eq_refl) end).
      replace (match base with Ref _ _ => None | _ => init e (obj_direct D) (Ref (var_of base) base) end) with (init e (obj_direct D) (Ref (var_of base) base)) by (destruct base; try reflexivity; case (N _ _ eq_refl)).
      eapply C; [exact (conj W N)|exact LS|exact RD|]. constructor. exact B.
    - intros d0 s d' s' R LS. inversion R; subst. match goal with A : reads_direct _ _ _ _ _ _ |- _ => apply L in A; auto; inversion A; subst; assumption end.
  Qed.
  Lemma step_arr : forall D n, good_r D -> good_r (ArrD D n).
  Proof.
    intros D n [S [C L]]. split; [|split].
    - intros base t d0 s W H Q. cbn [obj_direct] in H. rewrite init_arr in H by apply obj_direct_null.
      assert (HB : (not_void base /\ not_ref base) /\ init e (obj_direct D) (Arr n base) = Some t) by
        (split; [split; [intros c E|intros v u E]; subst; discriminate|destruct base; try exact H; discriminate]).
      destruct HB as [N HB]. destruct (S (Arr n base) t d0 s (conj W N) HB Q) as [d' [s' [R B]]]. inversion B; subst. exists d', u. split; [constructor; exact R|assumption].
    - intros base d0 s d' s' W LS R B. inversion R; subst. cbn [obj_direct]. rewrite init_arr by apply obj_direct_null.
      match goal with A : reads_direct _ _ _ _ _ _ |- _ => pose proof (L _ _ _ _ A LS) as LR; rename A into RD end. inversion LR; subst.
      assert (N : not_ref base) by (intros v u ->; inversion B; subst; match goal with A : forall u, _ <> CRef u |- _ => exact (A _ eq_refl) end).
      assert (N' : not_void base) by (intros c ->; inversion B; subst; match goal with A : forall u, _ <> CVoid u |- _ => exact (A _ eq_refl) end).
      replace (match base with Void _ | Ref _ _ => None | _ => init e (obj_direct D) (Arr n base) end) with (init e (obj_direct D) (Arr n base)) by (destruct base; try reflexivity; [case (N' _ eq_refl)|case (N _ _ eq_refl)]).
      eapply C; [exact (conj W (conj N' N))|exact LS|exact RD|]. constructor. exact B.
    - intros d0 s d' s' R LS. inversion R; subst. match goal with A : reads_direct _ _ _ _ _ _ |- _ => apply L in A; auto; inversion A; subst; assumption end.
  Qed.
  Lemma bound_stands : forall ts us d, Forall bound ts -> (Forall2 (completes d) ts us <-> Forall2 stands_for ts us).
  Proof.
    intros ts us d B. revert us. induction B as [|x r BX B IHB]; intros us; split; intros Q; inversion Q; subst; constructor; try (apply IHB; assumption).
    - apply (proj1 (bound_default x BX d y)). assumption.
    - apply (proj2 (bound_default x BX d y)). assumption.
  Qed.
  Lemma step_fun : forall D p, good_r D -> good_p p -> good_r (FunD D p).
  Proof.
    intros D p [S [C L]] [PS PC]. split; [|split].
    - intros base t d0 s W H Q. cbn [obj_direct] in H. rewrite init_fun in H by apply obj_direct_null.
      destruct (init_params e (obj_params p)) as [ts|] eqn:EP; [|discriminate].
      assert (N : not_fun base) by (intros r us ->; discriminate).
      assert (HB : init e (obj_direct D) (Fun (resolve Vry base) ts) = Some t) by (destruct base; try exact H; discriminate).
      pose proof (proj2 (init_wf e WE) _ _ EP) as BT.
      assert (BR : bound (resolve Vry base)) by (apply resolve_is_bound; auto; discriminate).
      assert (W' : wf (Fun (resolve Vry base) ts)) by (cbn; repeat split; auto; [apply resolve_wf; auto; discriminate|apply resolve_not; exact N]).
      destruct (S _ t d0 s W' HB Q) as [d' [s' [R B]]]. inversion B; subst.
      match goal with A : completes true (resolve Vry base) _ |- _ => apply (bound_default _ BR) in A; apply (resolve_completes base W Vry) in A; [|discriminate]; rename A into AR end.
      match goal with A : Forall2 (completes true) ts _ |- _ => apply (bound_stands _ _ _ BT) in A; rename A into AP end.
      eexists true, _. split; [|exact AR]. eapply r_fun; [exact R|]. eapply PS; [reflexivity|exact AP].
    - intros base d0 s d' s' W LS R B. inversion R; subst. cbn [obj_direct]. rewrite init_fun by apply obj_direct_null.
      match goal with A : reads_params _ _ _ |- _ => destruct (PC _ A) as [ts [EP AP]] end. rewrite EP.
      match goal with A : reads_direct _ _ _ _ _ _ |- _ => pose proof (L _ _ _ _ A LS) as LR; rename A into RD end. inversion LR; subst.
      assert (N : not_fun base) by (intros r vs ->; inversion B; subst; match goal with A : forall s us, _ <> CFun s us |- _ => exact (A _ _ eq_refl) end).
      replace (match base with Fun _ _ => None | _ => init e (obj_direct D) (Fun (resolve Vry base) ts) end) with (init e (obj_direct D) (Fun (resolve Vry base) ts)) by (destruct base; try reflexivity; case (N _ _ eq_refl)).
      pose proof (proj2 (init_wf e WE) _ _ EP) as BT.
      assert (BR : bound (resolve Vry base)) by (apply resolve_is_bound; auto; discriminate).
      assert (W' : wf (Fun (resolve Vry base) ts)) by (cbn; repeat split; auto; [apply resolve_wf; auto; discriminate|apply resolve_not; exact N]).
      eapply C; [exact W'|exact LS|exact RD|]. constructor.
      + apply (bound_default _ BR). apply (resolve_completes base W Vry); [discriminate|]. exact B.
      + apply (bound_stands _ _ _ BT). exact AP.
    - intros d0 s d' s' R LS. inversion R; subst. match goal with A : reads_direct _ _ _ _ _ _ |- _ => apply L in A; auto; inversion A; subst; assumption end.
  Qed.
  Lemma resolve_kind : forall v t, match resolve v t with
    | Atom _ _ _ => True | Void _ => True | Ptr _ _ _ => True | Arr n u => exists w, t = Arr n w /\ u = resolve v w | Ref _ _ => True | Fun _ _ => True end.
  Proof. intros v t. destruct t; cbn; auto. eauto. Qed.
  Lemma param_ok : forall l D, ok_specs e l -> good_d D ->
    (forall b t t' u, base_type e l = Some b -> init e (obj_decl D) b = Some t -> parameter t = Some t' -> stands_for t' u -> reads_param e l D u) /\
    (forall u, reads_param e l D u -> exists b t t', base_type e l = Some b /\ init e (obj_decl D) b = Some t /\ parameter t = Some t' /\ stands_for t' u).
  Proof.
    intros l D OK [S [C L]]. destruct (base_ok e l WE OK) as [B1 B2]. split.
    - intros b t t' u EB EI EP Q. destruct (B1 b EB) as [WB [NB BI]].
      assert (WT : wf t) by (eapply (proj1 (init_wf e WE)); eauto).
      assert (X : exists s, stands_for (resolve Vry t) s /\ (forall c, s <> CVoid c) /\ (forall n w, s = CArr n w -> all_sized w) /\ adjust s u).
      { unfold parameter in EP. destruct (resolve Vry t) as [v c b0|c|v c w|n w|v w|r ps] eqn:ER; try discriminate;
        try (inversion EP; subst t'; exists u; repeat split; auto; [intros c' ->; inversion Q|intros n' w' ->; inversion Q|destruct u; cbn; auto; inversion Q]).
        destruct (sized w) eqn:ES; [|discriminate]. inversion EP; subst t'. inversion Q; subst. exists (CArr n u0). repeat split.
        - constructor. assumption.
        - intros c. discriminate.
        - intros n' w' E. inversion E; subst. eapply all_sized_ok; eauto.
        - cbn. match goal with A : view_var Uni _ |- _ => cbn in A; subst end. reflexivity. }
      destruct X as [s [X1 [X2 [X3 X4]]]]. apply (resolve_completes t WT Vry) in X1; [|discriminate].
      destruct (S b t true s WB EI X1) as [d' [s' [R BC]]]. econstructor; [exact R|apply BI; exact BC|eapply completes_legal; eauto|exact X2|exact X3|exact X4].
    - intros u R. inversion R; subst. match goal with A : base_is _ _ _ _ |- _ => rename A into BI end.
      destruct (B2 _ _ BI) as [b EB]. destruct (B1 b EB) as [WB [NB BE]]. apply BE in BI.
      destruct (C b true s d' s' WB) as [t [EI CT]]; auto.
      assert (WT : wf t) by (eapply (proj1 (init_wf e WE)); eauto).
      apply (resolve_completes t WT Vry) in CT; [|discriminate].
      exists b, t. unfold parameter. destruct (resolve Vry t) as [v c b0|c|v c w|n w|v w|r ps] eqn:ER; inversion CT; subst; 
        try (eexists; repeat split; eauto; match goal with A : adjust _ _ |- _ => cbn in A; subst end; exact CT).
      + match goal with A : forall c, _ <> CVoid c |- _ => case (A _ eq_refl) end.
      + match goal with A : forall n t, _ -> all_sized t |- _ => specialize (A _ _ eq_refl); rename A into AS end.
        match goal with A : stands_for w _ |- _ => rename A into SW end. rewrite (proj2 (all_sized_ok _ _ SW) AS).
        eexists; repeat split; eauto. match goal with A : adjust _ _ |- _ => cbn in A; subst end. constructor; [reflexivity|exact SW].
  Qed.
  Theorem good_all :
    (forall D, kept e D -> good_d D) /\ (forall D, kept_direct e D -> good_r D) /\ (forall a, kept_abst e a -> good_d (named a)) /\
    (forall d, kept_dabst e d -> good_r (named_d d)) /\ (forall p, kept_params e p -> good_p p).
  Proof.
    apply decl_mut; cbn [kept kept_direct kept_abst kept_dabst kept_params named named_d]; intros.
    - apply step_dir; auto.
    - apply step_ptr; auto.
    - apply step_ref; auto.
    - apply step_id.
    - apply step_paren; auto.
    - apply step_arr; auto.
    - destruct H1. apply step_fun; auto.
    - apply step_ptr. apply step_id.
    - apply step_dir; auto.
    - destruct H0 as [_ [_ H0]]. apply step_ptr; auto.
    - apply step_ref. apply step_id.
    - apply step_ref; auto.
    - apply step_paren; auto.
    - apply step_arr. apply step_id.
    - apply step_arr; auto.
    - contradiction.
    - destruct H1. apply step_fun; auto.
    - split.
      + intros ts us A B. inversion A; subst. inversion B; subst. constructor.
      + intros us A. inversion A; subst. exists []. split; [reflexivity|constructor].
    - destruct H1 as [OK [K1 K2]]. destruct (H0 K2) as [PS PC]. destruct (param_ok s d OK (H K1)) as [P1 P2]. split.
      + intros ts us A B. cbn [obj_params init_params] in A. destruct (base_type e s) as [b|] eqn:EB; [|discriminate].
        destruct (init e (obj_decl d) b) as [t|] eqn:EI; [|discriminate]. destruct (parameter t) as [t'|] eqn:EP; [|discriminate].
        destruct (init_params e (obj_params r)) as [ts'|] eqn:ER; [|discriminate]. inversion A; subst. inversion B; subst. constructor; [eapply P1; [reflexivity|exact EI|exact EP|assumption]|eapply PS; eauto].
      + intros us A. inversion A; subst. match goal with R : reads_param _ _ _ _ |- _ => destruct (P2 _ R) as [b [t [t' [E1 [E2 [E3 E4]]]]]] end.
        match goal with R : reads_params _ r _ |- _ => destruct (PC _ R) as [ts [E5 E6]] end.
        cbn [obj_params init_params]. rewrite E1, E2, E3, E5. eexists. split; [reflexivity|constructor; auto].
    - destruct H1 as [OK [K1 K2]]. destruct (H0 K2) as [PS PC]. destruct (param_ok s (named a) OK (H K1)) as [P1 P2]. pose proof (proj2 (proj1 (init_named e) a K1)) as EN. split.
      + intros ts us A B. cbn [obj_params init_params] in A. destruct (base_type e s) as [b|] eqn:EB; [|discriminate]. rewrite EN in A.
        destruct (init e (obj_decl (named a)) b) as [t|] eqn:EI; [|discriminate]. destruct (parameter t) as [t'|] eqn:EP; [|discriminate].
        destruct (init_params e (obj_params r)) as [ts'|] eqn:ER; [|discriminate]. inversion A; subst. inversion B; subst. constructor; [eapply P1; [reflexivity|exact EI|exact EP|assumption]|eapply PS; eauto].
      + intros us A. inversion A; subst. match goal with R : reads_param _ _ _ _ |- _ => destruct (P2 _ R) as [b [t [t' [E1 [E2 [E3 E4]]]]]] end.
        match goal with R : reads_params _ r _ |- _ => destruct (PC _ R) as [ts [E5 E6]] end.
        cbn [obj_params init_params]. rewrite E1, EN, E2, E3, E5. eexists. split; [reflexivity|constructor; auto].
    - destruct H0 as [OK K2]. destruct (H K2) as [PS PC]. destruct (param_ok s (Dir Id) OK (step_dir _ step_id)) as [P1 P2]. split.
      + intros ts us A B. cbn [obj_params init_params] in A. destruct (base_type e s) as [b|] eqn:EB; [|discriminate]. change (init e DBase b) with (init e (obj_decl (Dir Id)) b) in A.
        destruct (init e (obj_decl (Dir Id)) b) as [t|] eqn:EI; [|discriminate]. destruct (parameter t) as [t'|] eqn:EP; [|discriminate].
        destruct (init_params e (obj_params r)) as [ts'|] eqn:ER; [|discriminate]. inversion A; subst. inversion B; subst. constructor; [eapply P1; [reflexivity|exact EI|exact EP|assumption]|eapply PS; eauto].
      + intros us A. inversion A; subst. match goal with R : reads_param _ _ _ _ |- _ => destruct (P2 _ R) as [b [t [t' [E1 [E2 [E3 E4]]]]]] end.
        match goal with R : reads_params _ r _ |- _ => destruct (PC _ R) as [ts [E5 E6]] end.
        cbn [obj_params init_params]. rewrite E1. change (init e DBase b) with (init e (obj_decl (Dir Id)) b). rewrite E2, E3, E5. eexists. split; [reflexivity|constructor; auto].
  Qed.

  Theorem written_ok : forall l D, ok_specs e l -> kept e D ->
    forall d0 s, (exists t, written e l D = Some t /\ completes d0 t s) <-> legal s /\ exists s' d', reads e D s d0 s' d' /\ base_is e l d' s'.
  Proof.
    intros l D OK K d0 s. destruct (base_ok e l WE OK) as [B1 B2]. destruct (proj1 good_all D K) as [S [C L]]. unfold written. split.
    - intros [t [H Q]]. destruct (base_type e l) as [b|] eqn:EB; [|discriminate]. destruct (B1 b eq_refl) as [WB [NB BI]].
      split; [eapply completes_legal; [|exact Q]; eapply (proj1 (init_wf e WE)); eauto|].
      destruct (S b t d0 s WB H Q) as [d' [s' [R BC]]]. exists s', d'. split; [exact R|apply BI; exact BC].
    - intros [LS [s' [d' [R BI]]]]. destruct (B2 _ _ BI) as [b EB]. rewrite EB. destruct (B1 b EB) as [WB [NB BE]]. apply BE in BI. apply (C b d0 s d' s'); auto.
  Qed.
  Theorem declared_ok : forall l D, ok_specs e l -> kept e D ->
    forall s, (exists t, declared e l D = Some t /\ stands_for t s) <-> declares e l D s /\ legal s /\ (forall c, s <> CVoid c).
  Proof.
    intros l D OK K s. pose proof (written_ok l D OK K true s) as WO. unfold declares, declared. split.
    - intros [t [H Q]]. destruct (written e l D) as [w|] eqn:EW; [|discriminate]. pose proof (written_wf _ _ _ _ WE EW) as W.
      assert (CW : completes true w s /\ forall c, s <> CVoid c).
      { destruct w as [v c b|c|v c u|n u|v u|r ps]; try discriminate; inversion H; subst t.
        - split; [apply (resolve_completes _ W Vry) in Q; [exact Q|discriminate]|intros c' ->; inversion Q].
        - split; [apply (resolve_completes _ W Vry) in Q; [exact Q|discriminate]|intros c' ->; inversion Q].
        - split; [apply (resolve_completes _ W Vry) in Q; [exact Q|discriminate]|intros c' ->; inversion Q].
        - split; [apply (resolve_completes _ W Vry) in Q; [exact Q|discriminate]|intros c' ->; inversion Q].
        - split; [|intros c' ->; inversion Q]. apply bound_default; [|exact Q]. apply bound_fun. cbn in W. tauto. }
      destruct CW as [CW NV]. destruct (proj1 WO) as [LS X]; [eauto|]. auto.
    - intros [DC [LS NV]]. destruct (proj2 WO (conj LS DC)) as [w [EW CW]]. rewrite EW. pose proof (written_wf _ _ _ _ WE EW) as W.
      destruct w as [v c b|c|v c u|n u|v u|r ps].
      + eexists. split; [reflexivity|]. apply (resolve_completes _ W Vry); [discriminate|exact CW].
      + inversion CW; subst. case (NV _ eq_refl).
      + eexists. split; [reflexivity|]. apply (resolve_completes _ W Vry); [discriminate|exact CW].
      + eexists. split; [reflexivity|]. apply (resolve_completes _ W Vry); [discriminate|exact CW].
      + eexists. split; [reflexivity|]. apply (resolve_completes _ W Vry); [discriminate|exact CW].
      + eexists. split; [reflexivity|]. apply (bound_default (Fun r ps)) with (d := true); [|exact CW]. apply bound_fun. cbn in W. tauto.
  Qed.
End Env.

(** The order of specifiers *)
Lemma types_perm : forall l l', Permutation l l' -> Permutation (types_in l) (types_in l').
Proof.
  intros l l' P. induction P; cbn; auto.
  - destruct x; auto.
  - destruct x, y; auto; constructor.
  - eapply Permutation_trans; eauto.
Qed.
Lemma base_perm : forall e l l' d s, Permutation l l' -> base_is e l d s -> base_is e l' d s.
Proof.
  intros e l l' d s P [t [u [T1 [T2 [T3 [T4 [T5 [T6 T7]]]]]]]].
  assert (I1 : forall a, In a l' <-> In a l) by (intros a; split; apply Permutation_in; [apply Permutation_sym|]; exact P).
  assert (TT : type_named e l' t).
  { unfold type_named in *. pose proof (types_perm _ _ P) as PT. destruct (types_in l) as [|a [|b r]].
    - apply Permutation_nil in PT. rewrite PT. exact T1.
    - apply Permutation_length_1_inv in PT. rewrite PT. exact T1.
    - destruct a; contradiction. }
  exists t, u. split; [exact TT|]. split; [rewrite !I1; exact T2|]. split; [rewrite I1; exact T3|]. split; [rewrite I1; exact T4|].
  split; [intros d'; rewrite !I1; apply T5|]. split; rewrite I1; auto.
Qed.

(** Enumerators *)
Lemma enum_from : forall l next k, (0 <= next < 2 ^ 32)%Z ->
  match nth_error l k with
  | None => nth_error (enumerators next l) k = None
  | Some (Some v) => nth_error (enumerators next l) k = Some (v mod 2 ^ 32)%Z
  | Some None => match k with O => nth_error (enumerators next l) k = Some next
                 | S j => exists v, nth_error (enumerators next l) j = Some v /\ nth_error (enumerators next l) k = Some ((v + 1) mod 2 ^ 32)%Z end
  end.
Proof.
  induction l as [|a r IH]; intros next k H; [destruct k; reflexivity|].
  assert (HM : forall v, (0 <= (v + 1) mod 2 ^ 32 < 2 ^ 32)%Z) by (intros; apply Z.mod_pos_bound; reflexivity).
  destruct k as [|k].
  - cbn. destruct a; reflexivity.
  - cbn [nth_error]. destruct a as [v|].
    + cbn [enumerators nth_error]. specialize (IH ((v + 1) mod 2 ^ 32)%Z k (HM v)). destruct (nth_error r k) as [[w|]|]; auto.
      destruct k as [|j]; [|exact IH]. exists (v mod 2 ^ 32)%Z. split; [reflexivity|]. rewrite IH. f_equal. rewrite Z.add_mod_idemp_l by discriminate. reflexivity.
    + cbn [enumerators nth_error]. specialize (IH ((next + 1) mod 2 ^ 32)%Z k (HM next)). destruct (nth_error r k) as [[w|]|]; auto.
      destruct k as [|j]; [|exact IH]. exists next. split; [reflexivity|exact IH].
Qed.
