(** Lemmas for C75: views of objects, and what evaluation gives. *)
From Coq Require Import ZArith List Bool Arith Lia.
Import ListNotations.
From Verif Require Import ConstModel ConstSpec.

Lemma ty_eqb_refl ign t : ty_eqb ign t t = true.
Proof.
  induction t; cbn; rewrite ?Bool.eqb_reflx, ?orb_true_r; cbn; rewrite ?IHt, ?Nat.eqb_refl; auto.
Qed.
Lemma ty_eqb_eq a : forall b, ty_eqb false a b = true -> a = b.
Proof.
  induction a; intros b H; destruct b; cbn in H; try (apply andb_true_iff in H; destruct H as [H1 H2]; try discriminate);
    try (apply eqb_prop in H1; subst); auto.
  - f_equal; auto.
  - apply andb_true_iff in H2. destruct H2 as [H2 H3]. apply Nat.eqb_eq in H2. f_equal; auto.
  - apply Nat.eqb_eq in H2. subst; auto.
Qed.
Lemma is_const_as t : is_const (as_const t) = true.
Proof. induction t; cbn; auto. Qed.
Lemma as_const_idem t : as_const (as_const t) = as_const t.
Proof. induction t; cbn; congruence. Qed.
Lemma as_const_non t : as_const (as_nonconst t) = as_const t.
Proof. induction t; cbn; congruence. Qed.
Lemma as_const_arr t : is_arr (as_const t) = is_arr t.
Proof. destruct t; auto. Qed.
Lemma as_const_ptr t : is_ptr (as_const t) = is_ptr t.
Proof. destruct t; auto. Qed.
Lemma as_const_void t : is_void (as_const t) = is_void t.
Proof. destruct t; auto. Qed.

Lemma plain_eq to : forall from, plain_ref to -> ty_eqb true to from = true -> is_const to = true -> to = as_const from.
Proof.
  unfold plain_ref. induction to; intros from Hp He Hc; destruct from; cbn [ty_eqb orb andb is_const strip_arrays as_const] in *;
    try discriminate; subst; try (cbn in Hp; contradiction); auto.
  - apply andb_true_iff in He. destruct He as [E1 E2]. apply Nat.eqb_eq in E1. subst. f_equal. apply IHto; auto.
  - apply Nat.eqb_eq in He. subst. auto.
Qed.

Section D.
Variable D : structs.

Lemma sub_const t i : sub D (as_const t) i = option_map as_const (sub D t i).
Proof.
  destruct t; cbn [sub as_const option_map]; try reflexivity.
  - destruct (i <? n); reflexivity.
  - destruct (nth_error D s); [| reflexivity]. destruct (nth_error l i); [| reflexivity]. destruct c; cbn; rewrite ?as_const_idem; reflexivity.
Qed.
Lemma type_at_const p : forall t, type_at D (as_const t) p = option_map as_const (type_at D t p).
Proof.
  induction p as [| i p IH]; intros t; cbn; auto.
  rewrite sub_const. destruct (sub D t i); cbn; auto.
Qed.
Lemma type_at_app p : forall t q, type_at D t (p ++ q) = match type_at D t p with Some u => type_at D u q | None => None end.
Proof. induction p as [| i p IH]; intros t q; cbn; auto. destruct (sub D t i); auto. Qed.

Definition scalar (t : ty) : bool := match t with TInt _ | TPtr _ _ => true | _ => false end.
Lemma scalar_const t : scalar (as_const t) = scalar t.
Proof. destruct t; auto. Qed.

Lemma scalar_at_type t p : scalar_at D t p -> exists s, type_at D t p = Some s /\ scalar s = true.
Proof.
  induction 1; cbn [type_at sub]; try (eexists; split; [reflexivity | reflexivity]).
  - destruct (i <? n) eqn:E; auto. apply Nat.ltb_ge in E. lia.
  - rewrite H, H0. destruct c; [| assumption].
    rewrite type_at_const. destruct IHscalar_at as [u [-> Hu]]. cbn. eexists; split; eauto. rewrite scalar_const. auto.
Qed.
Lemma const_at_type t p : const_at D t p -> exists s, type_at D t p = Some s /\ scalar s = true /\ is_const s = true.
Proof.
  induction 1; cbn [type_at sub]; try (eexists; split; [reflexivity | split; reflexivity]).
  - destruct (i <? n) eqn:E; auto. apply Nat.ltb_ge in E. lia.
  - rewrite H, H0. destruct c; [| assumption].
    rewrite type_at_const. destruct IHconst_at as [u [-> [Hu Hc]]]. cbn. eexists; split; eauto. rewrite scalar_const, is_const_as. auto.
  - rewrite H, H0, type_at_const. apply scalar_at_type in H1. destruct H1 as [u [-> Hu]]. cbn. eexists; split; eauto.
    rewrite scalar_const, is_const_as. auto.
Qed.
Lemma type_scalar_at p : forall t s, type_at D t p = Some s -> scalar s = true -> scalar_at D t p.
Proof.
  induction p as [| i p IH]; intros t s H Hs; cbn [type_at] in H.
  - inversion H; subst. destruct s; cbn in Hs; try discriminate; constructor.
  - destruct t; cbn [sub] in H; try discriminate.
    + destruct (i <? n) eqn:E; [| discriminate]. apply Nat.ltb_lt in E. constructor; eauto.
    + destruct (nth_error D s0) as [ms |] eqn:E; [| discriminate]. destruct (nth_error ms i) as [m |] eqn:E2; [| discriminate].
      econstructor; eauto. destruct c; eauto. rewrite type_at_const in H. destruct (type_at D m p) as [u |] eqn:E3; [| discriminate].
      cbn in H. inversion H; subst. rewrite scalar_const in Hs. eauto.
Qed.
Lemma type_const_at p : forall t s, type_at D t p = Some s -> scalar s = true -> is_const s = true -> const_at D t p.
Proof.
  induction p as [| i p IH]; intros t s H Hs Hc; cbn [type_at] in H.
  - inversion H; subst. destruct s; cbn in Hs, Hc; try discriminate; subst; constructor.
  - destruct t; cbn [sub] in H; try discriminate.
    + destruct (i <? n) eqn:E; [| discriminate]. apply Nat.ltb_lt in E. constructor; eauto.
    + destruct (nth_error D s0) as [ms |] eqn:E; [| discriminate]. destruct (nth_error ms i) as [m |] eqn:E2; [| discriminate].
      destruct c.
      * eapply CA_struct; eauto. rewrite type_at_const in H. destruct (type_at D m p) as [u |] eqn:E3; [| discriminate].
        cbn in H. inversion H; subst. rewrite scalar_const in Hs. eapply type_scalar_at; eauto.
      * eapply CA_member; eauto.
Qed.

(** ** A pointer or reference to [t] may designate an object of type [u]. *)
Inductive views : ty -> ty -> Prop :=
| V_void u c : views u (TVoid c)
| V_same u : views u u
| V_const u : views u (as_const u)
| V_arr n m e : views (TArr n e) (TArr m e)
| V_arrc n m e : views (TArr n e) (TArr m (as_const e)).

Lemma views_const u t : views u t -> views u (as_const t).
Proof. destruct 1; cbn; rewrite ?as_const_idem; constructor. Qed.
Lemma views_arr u n m e : views u (TArr n e) -> views u (TArr m e).
Proof.
  inversion 1; subst; try constructor. destruct u; cbn in *; try discriminate.
  match goal with H : TArr _ _ = TArr _ _ |- _ => inversion H; subst end. constructor.
Qed.
Lemma views_elem u n e : views u (TArr n e) -> exists m e', u = TArr m e' /\ views e' e.
Proof.
  inversion 1; subst.
  - do 2 eexists; split; eauto. constructor.
  - destruct u; cbn in *; try discriminate. match goal with H : TArr _ _ = TArr _ _ |- _ => inversion H; subst end.
    do 2 eexists; split; eauto. constructor.
  - do 2 eexists; split; eauto. constructor.
  - do 2 eexists; split; eauto. constructor.
Qed.
Lemma views_member u c s i t : views u (TStruct c s) -> sub D (TStruct c s) i = Some t -> exists u', sub D u i = Some u' /\ views u' t.
Proof.
  inversion 1; subst; intros E.
  - exists t. split; auto. constructor.
  - destruct u; cbn in *; try discriminate. match goal with H : TStruct _ _ = TStruct _ _ |- _ => inversion H; subst end.
    destruct (nth_error D s); [| discriminate]. destruct (nth_error l i); [| discriminate]. inversion E; subst.
    eexists; split; eauto. destruct c0; [constructor | constructor].
Qed.
Lemma views_flat u t : views u t -> is_arr t = false -> is_void t = false -> t = u \/ t = as_const u.
Proof. destruct 1; cbn; auto; discriminate. Qed.
Lemma views_write u t : views u t -> is_arr t = false -> is_void t = false -> is_const t = false -> t = u.
Proof.
  intros H Ha Hv Hc. destruct (views_flat u t H Ha Hv); subst; auto. rewrite is_const_as in Hc. discriminate.
Qed.

(** ** Well-typed values and states. *)
Definition tyval (st : state) (s : ty) (v : val) : Prop :=
  match s, v with
  | TPtr _ b, VPtr a => exists u, addr_ty D st a = Some u /\ views u b
  | TPtr _ _, VInt _ => False
  | _, _ => True
  end.
Definition val_ok (st : state) (t : ty) (v : value) : Prop := forall q s, type_at D t q = Some s -> tyval st s (v q).
Definition block_ok (st : state) (b : nat) (t : ty) (v : value) : Prop :=
  val_ok st t (mem st b) /\ forall p s, type_at D t p = Some s -> scalar s = true -> is_const s = true -> mem st b p = v p.
Definition st_ok (st : state) : Prop := forall b t v, nth_error (blocks st) b = Some (t, v) -> block_ok st b t v.
Definition ext (st st' : state) : Prop := exists l, blocks st' = blocks st ++ l.

Lemma ext_refl st : ext st st.
Proof. exists []. rewrite app_nil_r. auto. Qed.
Lemma ext_trans a b c : ext a b -> ext b c -> ext a c.
Proof. intros [l E] [m F]. exists (l ++ m). rewrite F, E, app_assoc. auto. Qed.
Lemma addr_mono st st' a u : ext st st' -> addr_ty D st a = Some u -> addr_ty D st' a = Some u.
Proof.
  intros [l E] H. unfold addr_ty in *. rewrite E. destruct (nth_error (blocks st) (fst a)) as [x |] eqn:F; [| discriminate].
  rewrite nth_error_app1, F; auto. apply nth_error_Some. congruence.
Qed.
Lemma tyval_mono st st' s v : ext st st' -> tyval st s v -> tyval st' s v.
Proof. intros E. destruct s, v; cbn; auto. intros [u [H V]]. exists u. split; auto. eapply addr_mono; eauto. Qed.
Lemma val_mono st st' t v : ext st st' -> val_ok st t v -> val_ok st' t v.
Proof. intros E H q s F. eapply tyval_mono; eauto. Qed.
Lemma tyval_const st s v : tyval st (as_const s) v <-> tyval st s v.
Proof. destruct s, v; cbn; tauto. Qed.
Lemma val_const st t v : val_ok st (as_const t) v <-> val_ok st t v.
Proof.
  unfold val_ok; split; intros H q s E.
  - specialize (H q (as_const s)). rewrite type_at_const, E in H. apply tyval_const. auto.
  - rewrite type_at_const in E. destruct (type_at D t q) eqn:F; [| discriminate]. inversion E; subst. apply tyval_const. auto.
Qed.
Lemma val_scal st t v : scalar t = true -> (val_ok st t v <-> tyval st t (v [])).
Proof.
  intros Hs; split; intros H.
  - apply (H []). auto.
  - intros q s E. destruct q as [| i q]; [inversion E; subst; auto |]. destruct t; cbn in *; discriminate.
Qed.

Definition res_ok (st : state) (t : ty) (r : res) : Prop :=
  match r with RL a => exists u, addr_ty D st a = Some u /\ views u t | RV v => val_ok st t v end.

Lemma load_ok st a u t : st_ok st -> addr_ty D st a = Some u -> views u t -> is_arr t = false -> val_ok st t (load st a).
Proof.
  intros Hst Ha Hv Harr. unfold addr_ty in Ha. destruct (nth_error (blocks st) (fst a)) as [[t0 v0] |] eqn:E; [| discriminate].
  destruct (Hst _ _ _ E) as [H _].
  assert (val_ok st u (load st a)) as K.
  { intros q s F. unfold load. apply H. rewrite type_at_app, Ha. auto. }
  destruct (is_void t) eqn:Ev.
  { destruct t; try discriminate. intros q s F. destruct q; [inversion F; subst; cbn; auto | discriminate]. }
  destruct (views_flat u t Hv Harr Ev); subst; auto. apply val_const; auto.
Qed.
Lemma value_ok st t r : st_ok st -> res_ok st t r -> is_arr t = false -> val_ok st t (value_of st r).
Proof. intros Hst H Ha. destruct r; cbn in *; auto. destruct H as [u [H V]]. eapply load_ok; eauto. Qed.

Lemma elem_at st a z a' n e : elem D st a z = Some a' -> addr_ty D st a = Some (TArr n e) -> addr_ty D st a' = Some e.
Proof.
  intros H Ha. unfold elem, checked in H. destruct (0 <=? z)%Z; [| discriminate].
  destruct (addr_ty D st (fst a, snd a ++ [Z.to_nat z])) as [w |] eqn:E; [| discriminate]. inversion H; subst.
  rewrite E. f_equal. unfold addr_ty in *. cbn [fst snd] in E. destruct (nth_error (blocks st) (fst a)) as [[t0 v0] |]; [| discriminate].
  rewrite type_at_app, Ha in E. cbn [type_at sub] in E. destruct (Z.to_nat z <? n); [| discriminate]. inversion E; subst. auto.
Qed.
Lemma elem_ok st a z a' n e : elem D st a z = Some a' -> (exists u, addr_ty D st a = Some u /\ views u (TArr n e)) ->
  exists u, addr_ty D st a' = Some u /\ views u e.
Proof.
  intros H [u [Ha V]]. destruct (views_elem _ _ _ V) as [m [e' [-> V']]]. exists e'. split; auto. eapply elem_at; eauto.
Qed.
Lemma move_ok st a z a' b : move D st a z = Some a' -> (exists u, addr_ty D st a = Some u /\ views u b) ->
  exists u, addr_ty D st a' = Some u /\ views u b.
Proof.
  intros H [u [Ha V]]. unfold move in H. destruct (z =? 0)%Z; [inversion H; subst; eauto |].
  destruct (snd a) as [| i p] eqn:Ep; [discriminate |]. rewrite <- Ep in H.
  destruct (addr_ty D st (fst a, removelast (snd a))) as [w |] eqn:E; [| discriminate].
  destruct w; try discriminate.
  assert (snd a = removelast (snd a) ++ [last (snd a) 0]) as Es by (apply app_removelast_last; rewrite Ep; discriminate).
  exists u. split; auto. erewrite elem_at; [| exact H | exact E].
  unfold addr_ty in Ha, E. cbn [fst snd] in E. destruct (nth_error (blocks st) (fst a)) as [[t0 v0] |]; [| discriminate].
  rewrite Es, type_at_app, E in Ha. cbn [type_at sub] in Ha. destruct (last (snd a) 0 <? n) eqn:El; [| discriminate]. auto.
Qed.
Lemma field_ok st a c s f t : sub D (TStruct c s) f = Some t -> (exists u, addr_ty D st a = Some u /\ views u (TStruct c s)) ->
  exists u, addr_ty D st (fst a, snd a ++ [f]) = Some u /\ views u t.
Proof.
  intros H [u [Ha V]]. destruct (views_member _ _ _ _ _ V H) as [u' [E V']]. exists u'. split; auto.
  unfold addr_ty in *. cbn [fst snd]. destruct (nth_error (blocks st) (fst a)) as [[t0 v0] |]; [| discriminate].
  rewrite type_at_app, Ha. cbn. rewrite E. auto.
Qed.

(** ** Conversions without a warning. *)
Lemma coerce_ok st nul zero from to r v :
  st_ok st -> res_ok st from r -> conv nul zero from to = Yes -> (nul = true -> r = RV (scal VNull)) -> is_arr to = false ->
  coerce D st from to r = Some v -> val_ok st to v.
Proof.
  intros Hst Hr Hc Hn Ha Hv. unfold conv in Hc.
  destruct (ty_eqb false to from) eqn:E0.
  { apply ty_eqb_eq in E0. subst. destruct from; cbn in *; try discriminate; inversion Hv; subst; apply value_ok; auto. }
  destruct (is_void from || is_void to) eqn:Ev; [discriminate |].
  apply orb_false_iff in Ev. destruct Ev as [Ev1 Ev2].
  destruct from as [cf | cf fb | nf fe | cf sf | cf]; destruct to as [ct | ct tb | nt te | ct tt | ct]; cbn in Ha, Ev1, Ev2; try discriminate;
    cbn [coerce] in Hv.
  - inversion Hv; subst. apply val_scal; auto.  cbn. auto.
  - inversion Hv; subst. apply val_scal; auto. cbn. auto.
  - exfalso. destruct ct, cf; cbn in Hc; discriminate.
  - inversion Hv; subst. assert (val_ok st (TPtr cf fb) (value_of st r)) as K by (apply value_ok; auto).
    apply val_scal in K; auto. apply val_scal; auto. unfold tyval in *.
    destruct (value_of st r []) as [z | a | |] eqn:Er; auto. destruct K as [u [K V]].
    destruct (is_void tb) eqn:Etv.
    { destruct tb; try discriminate. exists u. split; auto. constructor. }
    destruct (is_void fb && nul) eqn:En.
    { apply andb_true_iff in En. destruct En as [_ ->]. rewrite (Hn eq_refl) in Er. discriminate. }
    destruct (ty_eqb false fb tb) eqn:E1; cbn in Hc.
    { apply ty_eqb_eq in E1. subst. eauto. }
    destruct (ty_eqb false (as_const fb) tb) eqn:E2; cbn in Hc.
    { apply ty_eqb_eq in E2. subst. exists u. split; auto. apply views_const; auto. }
    destruct (ty_eqb true fb tb); discriminate.
  - exfalso. destruct ct; cbn in Hc; rewrite ?andb_false_r in Hc; cbn in Hc; discriminate.
  - destruct r as [a | x]; [| discriminate]. destruct (elem D st a 0) as [a' |] eqn:E; [| discriminate]. inversion Hv; subst.
    apply val_scal; auto. cbn in Hr. destruct (elem_ok _ _ _ _ _ _ E Hr) as [u [Hu V]].
    cbn. exists u. split; auto.
    destruct (is_void tb) eqn:Etv; [destruct tb; try discriminate; constructor |].
    destruct (ty_eqb false (TPtr ct tb) (TPtr ct (if is_const tb then as_const fe else fe))) eqn:E1; [| discriminate].
    apply ty_eqb_eq in E1. assert (tb = if is_const tb then as_const fe else fe) as E2 by congruence.
    rewrite E2. destruct (is_const tb); [apply views_const; auto | auto].
  - exfalso. destruct ct; cbn in Hc; rewrite ?andb_false_r in Hc; cbn in Hc; discriminate.
  - exfalso. destruct ct, cf; cbn in Hc; discriminate.
  - exfalso. destruct ct, cf; cbn in Hc; discriminate.
  - inversion Hv; subst. assert (tt = sf) as ->.
    { cbn in Hc. destruct (tt =? sf) eqn:E; [apply Nat.eqb_eq in E; auto |]. exfalso.
      rewrite Nat.eqb_sym in E. rewrite E in Hc. rewrite ?andb_false_r in Hc. cbn in Hc. discriminate. }
    assert (val_ok st (TStruct cf sf) (value_of st r)) as K by (apply value_ok; auto).
    apply val_const in K. apply (proj1 (val_const st (TStruct ct sf) _)). exact K.
Qed.
End D.
