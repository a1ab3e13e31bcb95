(** Facts about types, and the deduction finds every exact choice. *)
From Coq Require Import ZArith NArith Bool Ascii List Lia.
From Verif Require Import TemplModel TemplSpec.
Import ListNotations.

Lemma name_eqb_true : forall a b, name_eqb a b = true <-> a = b.
Proof. intros a b. unfold name_eqb. destruct (list_eq_dec ascii_dec a b); split; auto; discriminate. Qed.
Lemma name_eqb_refl : forall a, name_eqb a a = true.
Proof. intros a. apply name_eqb_true; reflexivity. Qed.
Lemma name_eqb_false : forall a b, name_eqb a b = false <-> a <> b.
Proof. intros a b. unfold name_eqb. destruct (list_eq_dec ascii_dec a b); split; auto; [discriminate | contradiction]. Qed.
Lemma vr_eqb_true : forall a b, vr_eqb a b = true <-> a = b.
Proof. intros [] []; cbn; split; auto; discriminate. Qed.
Lemma vr_eqb_refl : forall a, vr_eqb a a = true.
Proof. intros []; reflexivity. Qed.

(** ** Types *)
Lemma type_equal_refl : forall t, type_equal t t = true.
Proof.
  induction t; cbn; rewrite eqb_reflx; cbn.
  - rewrite Nat.eqb_refl, vr_eqb_refl; reflexivity.
  - rewrite name_eqb_refl, vr_eqb_refl; reflexivity.
  - rewrite eqb_reflx; exact IHt.
  - exact IHt.
  - rewrite N.eqb_refl; exact IHt.
  - rewrite N.eqb_refl; exact IHt.
Qed.

Lemma ordinary_var : forall t, ordinary t -> var_of t <> Unb.
Proof. induction t; cbn; intros H; try tauto. Qed.

Lemma type_equal_eq : forall a b, ordinary a -> ordinary b -> type_equal a b = true -> a = b.
Proof.
  induction a; intros b0 Ha Hb H; destruct b0; cbn in Ha, Hb, H; try tauto;
    rewrite ?andb_false_r in H; try discriminate.
  - apply andb_prop in H. destruct H as [H1 H2]. apply andb_prop in H2. destruct H2 as [H2 H3].
    apply eqb_prop in H1. apply Nat.eqb_eq in H2. apply vr_eqb_true in H3. subst. reflexivity.
  - apply andb_prop in H. destruct H as [H1 H2]. apply andb_prop in H2. destruct H2 as [H2 H3].
    apply eqb_prop in H1. apply eqb_prop in H2.
    rewrite (IHa b0) by tauto. f_equal; auto.
    destruct Ha as [Ha _], Hb as [Hb _]. destruct v, v0; cbn in H2; congruence.
  - apply andb_prop in H. destruct H as [H1 H2]. apply andb_prop in H2. destruct H2 as [H2 H3].
    apply N.eqb_eq in H2. rewrite (IHa b0) by tauto. f_equal.
    destruct n, n0; cbn in H2; try tauto. congruence.
  - apply andb_prop in H. destruct H as [H1 H2]. apply andb_prop in H2. destruct H2 as [H2 H3].
    apply N.eqb_eq in H2. rewrite (IHa b0) by tauto. f_equal.
    destruct n, n0; cbn in H2; try tauto. congruence.
Qed.
Lemma type_equal_iff : forall a b, ordinary a -> ordinary b -> (type_equal a b = true <-> a = b).
Proof. intros a b Ha Hb. split; [apply type_equal_eq; auto | intros ->; apply type_equal_refl]. Qed.

Lemma ordinary_dep : forall t, ordinary t -> is_dep t = false.
Proof.
  intros t H. unfold is_dep. apply orb_false_intro.
  - induction t; cbn in *; tauto.
  - destruct t; cbn in *; try reflexivity; destruct n; tauto.
Qed.
Lemma ordinary_with_const : forall k t, ordinary t -> ordinary (with_const k t).
Proof. induction t; cbn; tauto. Qed.
Lemma ordinary_with_var : forall v t, v <> Unb -> ordinary t -> ordinary (with_var v t).
Proof. induction t; cbn; tauto. Qed.
Lemma ordinary_ref : forall t, ordinary t -> is_ref t = false.
Proof. destruct t; cbn; tauto. Qed.
Lemma with_const_twice : forall a b t, ordinary t -> with_const a (with_const b t) = with_const a t.
Proof. induction t; cbn; intros; try tauto; f_equal; apply IHt; tauto. Qed.
Lemma with_const_same : forall t, ordinary t -> with_const (is_const t) t = t.
Proof. induction t; cbn; intros; try tauto; f_equal; apply IHt; tauto. Qed.
Lemma is_const_with_const : forall k t, ordinary t -> is_const (with_const k t) = k.
Proof. induction t; cbn; intros; try tauto. Qed.
Lemma with_var_twice : forall a b t, ordinary t -> with_var a (with_var b t) = with_var a t.
Proof. induction t; cbn; intros; try tauto; f_equal; apply IHt; tauto. Qed.
Lemma var_with_var : forall v t, ordinary t -> var_of (with_var v t) = v.
Proof. induction t; cbn; intros; try tauto. Qed.
Lemma with_var_same : forall t, ordinary t -> with_var (var_of t) t = t.
Proof. induction t; cbn; intros; try tauto; f_equal; apply IHt; tauto. Qed.
Lemma is_const_with_var : forall v t, ordinary t -> is_const (with_var v t) = is_const t.
Proof. induction t; cbn; intros; try tauto. Qed.
Lemma var_with_const : forall v t, ordinary t -> var_of (with_const v t) = var_of t.
Proof. induction t; cbn; intros; try tauto. Qed.
Lemma with_var_with_const : forall v c t, ordinary t -> with_var v (with_const c t) = with_const c (with_var v t).
Proof. induction t; cbn; intros; try tauto; f_equal; apply IHt; tauto. Qed.

(** ** The map of arguments *)
Lemma lookup_add : forall e x y a, lookup (add_argument e x a) y = if name_eqb x y then Some a else lookup e y.
Proof. reflexivity. Qed.

Section Choice.
  Variable t : templ.
  Variable s : choice.
  Let parms := t_parms t.
  Hypothesis names : NoDup (map tparam_name parms).
  Hypothesis types : forall x, In (PType x) parms -> ordinary (c_type s x).
  Hypothesis counts : forall y b, In (PNon y b) parms -> (0 < c_num s y)%N /\ length y <= 15.

  Definition agree (e : env) : Prop :=
    forall p a, In p parms -> lookup e (tparam_name p) = Some a -> a = chosen s p.
  (* the names that are known *)
  Definition known (e : env) (x : name) : Prop := lookup e x <> None.

  Lemma same_param : forall p q, In p parms -> In q parms -> tparam_name p = tparam_name q -> p = q.
  Proof.
    intros p q Hp Hq E. revert names Hp Hq. generalize parms. intros l.
    induction l as [|r l IH]; intros ND Hp Hq; [destruct Hp|].
    cbn in ND. inversion ND as [|? ? Hn ND']; subst.
    destruct Hp as [<-|Hp], Hq as [<-|Hq].
    - reflexivity.
    - exfalso. apply Hn. rewrite E. apply in_map; assumption.
    - exfalso. apply Hn. rewrite <- E. apply in_map; assumption.
    - apply IH; assumption.
  Qed.

  Lemma agree_add : forall e p, In p parms -> agree e -> agree (add_argument e (tparam_name p) (chosen s p)).
  Proof.
    intros e p Hp A q a Hq L. rewrite lookup_add in L.
    destruct (name_eqb (tparam_name p) (tparam_name q)) eqn:E.
    - apply name_eqb_true in E. rewrite <- (same_param p q Hp Hq E). congruence.
    - apply (A q a Hq L).
  Qed.

  Lemma deduce_pointers : forall x c p, In (PType x) parms -> pointers_to x c p ->
    (c = true -> is_const (c_type s x) = false) ->
    forall d, deduce_param p (meaning s d p) = Some (x, c_type s x).
  Proof.
    intros x c p Hx. induction p; cbn; intros Hp Hc d; try contradiction.
    - destruct v; try contradiction. destruct Hp as [<- <-]. cbn [keyword].
      destruct c; cbn.
      + rewrite is_const_with_const by auto.
        rewrite ordinary_ref by (apply ordinary_with_const; auto). cbn.
        rewrite with_const_twice by auto.
        rewrite <- (Hc eq_refl). rewrite with_const_same by auto. reflexivity.
      + reflexivity.
    - apply IHp; auto.
  Qed.

  Lemma check_known : forall e x, In (PType x) parms -> agree e ->
    exists e', check_type e (Some (x, c_type s x)) = Some e' /\ agree e' /\
      (forall y, known e y -> known e' y) /\ known e' x.
  Proof.
    intros e x Hx A. unfold check_type, inst_type.
    destruct (lookup e x) as [a|] eqn:L; cbn.
    - rewrite (A (PType x) a Hx L). cbn. rewrite type_equal_refl.
      exists e. repeat split; auto. unfold known. congruence.
    - exists (add_argument e x (AType (c_type s x))). split; [reflexivity|]. split.
      + apply (agree_add e (PType x)); auto.
      + split.
        * intros y. unfold known. rewrite lookup_add. destruct (name_eqb x y); congruence.
        * unfold known. rewrite lookup_add, name_eqb_refl. discriminate.
  Qed.
  Lemma check_count : forall e y b, In (PNon y b) parms -> agree e ->
    exists e', check_value e (count_string y) int32 (Z.of_N (c_num s y)) = Some e' /\ agree e' /\
      (forall z, known e z -> known e' z) /\ known e' y.
  Proof.
    intros e y b Hy A. unfold check_value, inst_expr, count_string.
    rewrite firstn_all2 by (apply (counts y b Hy)).
    destruct (lookup e y) as [a|] eqn:L; cbn.
    - rewrite (A (PNon y b) a Hy L). cbn. rewrite Z.eqb_refl.
      exists e. repeat split; auto. unfold known. congruence.
    - exists (add_argument e y (AVal int32 (Z.of_N (c_num s y)))). split; [reflexivity|]. split.
      + apply (agree_add e (PNon y b)); auto.
      + split.
        * intros z. unfold known. rewrite lookup_add. destruct (name_eqb y z); congruence.
        * unfold known. rewrite lookup_add, name_eqb_refl. discriminate.
  Qed.

  (* one parameter and its argument: see C69_complete *)
  Definition fits_pointers (x : name) (p a : ty) : Prop :=
    exists c, In (PType x) parms /\ pointers_to x c (target p) /\
      (c = true \/ (by_value p /\ is_parm p = true) -> is_const (c_type s x) = false) /\
      exact (meaning s Vry p) a.
  Definition fits_vector (x y : name) (p a : ty) : Prop :=
    In (PType x) parms /\ (exists b, In (PNon y b) parms) /\ vector_of x y (target p) /\
    (by_value p -> is_const (c_type s x) = false) /\ exact (meaning s Vry p) a.

  Lemma pointers_not_ref : forall x c p, pointers_to x c p -> is_ref p = false.
  Proof. destruct p; cbn; auto; contradiction. Qed.
  Lemma deduce_one_pointers : forall e x p a, argument a -> fits_pointers x p a -> agree e ->
    exists e', deduce_one e p a = Some e' /\ agree e' /\ (forall y, known e y -> known e' y) /\ known e' x.
  Proof.
    intros e x p a Ha (c & Hx & Hp & Hc & Hex) A.
    assert (D : deduce_one e p a = check_type e (Some (x, c_type s x))).
    { unfold deduce_one.
      assert (adj : adjust_arg a = value_of a) by reflexivity.
      destruct p as [v k b|v k y|v k b|v k b|b n|b n]; cbn in Hp; try contradiction.
      - (* T by value *)
        destruct v; try contradiction. destruct Hp as [<- <-].
        assert (NC : is_const (c_type s x) = false) by (apply Hc; right; split; [exact I | reflexivity]).
        cbn [with_const]. rewrite adj.
        cbn [exact meaning keyword] in Hex.
        destruct (if c then with_const true (c_type s x) else c_type s x) eqn:E0;
          try (exfalso; pose proof (types x Hx) as O;
               destruct c; [apply (ordinary_with_const true) in O|]; rewrite E0 in O; exact O).
        all: cbn [deduce_param]; unfold exact in Hex; change decayed with decay in Hex; rewrite Hex, <- E0;
          replace (with_const false (if c then with_const true (c_type s x) else c_type s x)) with (c_type s x)
            by (destruct c; rewrite ?with_const_twice by auto; rewrite <- NC; symmetry; apply with_const_same; auto);
          reflexivity.
      - (* a pointer by value *)
        cbn [with_const]. rewrite adj. cbn [exact meaning with_const] in Hex. change decayed with decay in Hex. rewrite Hex.
        cbn [deduce_param].
        rewrite (deduce_pointers x c b Hx Hp) by (intros; apply Hc; left; assumption). reflexivity.
      - (* a reference *)
        cbn [target] in Hp. cbn [exact meaning mk_ref] in Hex. rewrite adj, Hex.
        assert (D := deduce_pointers x c b Hx Hp (fun h => Hc (or_introl h)) Vry).
        destruct b; cbn in Hp; try contradiction; rewrite D; reflexivity. }
    rewrite D. apply check_known; auto.
  Qed.

  Lemma deduce_one_vector : forall e x y p a, argument a -> fits_vector x y p a -> agree e ->
    exists e', deduce_one e p a = Some e' /\ agree e' /\
      (forall z, known e z -> known e' z) /\ known e' x /\ known e' y.
  Proof.
    intros e x y p a Ha (Hx & [b Hy] & Hp & Hc & Hex) A.
    assert (D : deduce_one e p a = deduce_vector e (Parm Unb false x) (CSym y) (c_type s x) (CFix (c_num s y))).
    { unfold deduce_one, vector_of in *.
      assert (adj : adjust_arg a = value_of a) by reflexivity.
      destruct p as [v k i|v k z|v k z|v k z|z n|z n]; cbn [target] in Hp; try discriminate.
      - subst z. cbn [meaning exact mk_ref keyword] in Hex. rewrite adj, Hex. reflexivity.
      - injection Hp as -> ->. cbn [meaning exact keyword with_const] in Hex. change decayed with decay in Hex. rewrite adj, Hex. cbn [with_const].
        rewrite <- (Hc I). rewrite with_const_same by auto. rewrite (Hc I). reflexivity. }
    rewrite D. unfold deduce_vector.
    change (deduce_param (Parm Unb false x) (c_type s x)) with (Some (x, c_type s x)).
    destruct (check_known e x Hx A) as (e1 & E1 & A1 & K1 & X1). rewrite E1. cbn [fixed_count].
    destruct (check_count e1 y b Hy A1) as (e2 & E2 & A2 & K2 & Y2). rewrite E2.
    exists e2. repeat split; auto.
  Qed.

  (** *** Parameters after the explicit arguments have been put in *)
  Lemma agree_inst_type : forall e x, In (PType x) parms -> agree e ->
    (inst_type e x = Some (c_type s x) /\ known e x) \/ (inst_type e x = None /\ ~ known e x).
  Proof.
    intros e x Hx A. unfold inst_type, known. destruct (lookup e x) as [a|] eqn:L.
    - left. rewrite (A (PType x) a Hx L). cbn. split; [reflexivity | discriminate].
    - right. cbn. tauto.
  Qed.
  Lemma agree_inst_expr : forall e y b, In (PNon y b) parms -> agree e ->
    (inst_expr e y = Some (int32, Z.of_N (c_num s y)) /\ known e y) \/ (inst_expr e y = None /\ ~ known e y).
  Proof.
    intros e y b Hy A. unfold inst_expr, known. destruct (lookup e y) as [a|] eqn:L.
    - left. rewrite (A (PNon y b) a Hy L). cbn. split; [reflexivity | discriminate].
    - right. tauto.
  Qed.

  Lemma resolve_pointers : forall e x c p, In (PType x) parms -> agree e -> pointers_to x c p ->
    (known e x /\ is_type_dep (resolve_dep e p) = false /\ is_count_dep (resolve_dep e p) = false) \/
    (~ known e x /\ resolve_dep e p = p).
  Proof.
    intros e x c p Hx A. induction p; cbn; intros Hp; try contradiction.
    - destruct v; try contradiction. destruct Hp as [<- <-].
      destruct (agree_inst_type e x Hx A) as [[E K]|[E K]]; rewrite E; [left | right; auto].
      split; [assumption|].
      assert (O : ordinary (if c then with_const true (c_type s x) else c_type s x))
        by (destruct c; [apply ordinary_with_const|]; auto).
      apply ordinary_dep in O. unfold is_dep in O. apply orb_false_elim in O. exact O.
    - destruct (IHp Hp) as [(K & D & _)|[K D]]; [left; auto | right; split; auto; rewrite D; reflexivity].
  Qed.
  Lemma resolve_fits_pointers : forall e x p a, agree e -> fits_pointers x p a ->
    (known e x /\ is_dep (resolve_dep e p) = false) \/
    (~ known e x /\ is_dep (resolve_dep e p) = true /\ fits_pointers x (resolve_dep e p) a).
  Proof.
    intros e x p a A (c & Hx & Hp & Hc & Hex).
    assert (TD : forall q, pointers_to x c q -> is_type_dep q = true).
    { induction q; cbn; intros Hq; auto; try contradiction. }
    destruct (is_ref p) eqn:R.
    - destruct p; try discriminate. cbn [target] in Hp. cbn [resolve_dep].
      destruct (resolve_pointers e x c p Hx A Hp) as [(K & D & _)|[K D]].
      + left. split; [assumption|]. unfold is_dep, ref_with_base. cbn. rewrite D. reflexivity.
      + right. rewrite D. split; [assumption|]. split.
        * unfold is_dep, ref_with_base. cbn. rewrite (TD p Hp). reflexivity.
        * exists c. repeat split; auto.
    - assert (T : target p = p) by (destruct p; auto; discriminate). rewrite T in Hp.
      destruct (resolve_pointers e x c p Hx A Hp) as [(K & D1 & D2)|[K D]].
      + left. split; [assumption|]. unfold is_dep. rewrite D1, D2. reflexivity.
      + right. rewrite D. split; [assumption|]. split.
        * unfold is_dep. rewrite (TD p Hp). reflexivity.
        * exists c. rewrite T. repeat split; auto.
  Qed.
  Lemma resolve_fits_vector : forall e x y p a, agree e -> fits_vector x y p a -> (known e x <-> known e y) ->
    (known e x /\ known e y /\ is_dep (resolve_dep e p) = false) \/
    (~ known e x /\ is_dep (resolve_dep e p) = true /\ fits_vector x y (resolve_dep e p) a).
  Proof.
    intros e x y p a A (Hx & [b Hy] & Hp & Hc & Hex) IFF.
    destruct (agree_inst_type e x Hx A) as [[E K]|[E K]];
      destruct (agree_inst_expr e y b Hy A) as [[E' K']|[E' K']]; try tauto.
    - left. split; [assumption|]. split; [assumption|].
      assert (O := types x Hx). apply ordinary_dep in O. unfold is_dep in O. apply orb_false_elim in O.
      assert (P : Z.ltb 0 (Z.of_N (c_num s y)) = true) by (apply Z.ltb_lt; pose proof (counts y b Hy); lia).
      destruct p; cbn [target] in Hp; unfold vector_of in Hp; try discriminate.
      + subst p. unfold is_dep, ref_with_base. cbn [resolve_dep is_type_dep is_count_dep].
        rewrite E. cbn. rewrite (proj1 O). reflexivity.
      + injection Hp as -> ->. unfold is_dep. cbn [resolve_dep is_type_dep is_count_dep resolve_count].
        rewrite E, E', P. cbn. rewrite (proj1 O). reflexivity.
    - right. split; [assumption|].
      destruct p; cbn [target] in Hp; unfold vector_of in Hp; try discriminate.
      + subst p. cbn [resolve_dep resolve_count]. rewrite E, E'. split; [reflexivity|].
        repeat split; eauto; try (intros []; fail).
      + injection Hp as -> ->. cbn [resolve_dep resolve_count]. rewrite E, E'. split; [reflexivity|].
        repeat split; eauto.
  Qed.

  (** *** The loop *)
  (* what one function parameter and its argument must be; e0: the explicit arguments *)
  Definition fits (e0 : env) (p a : ty) : Prop :=
    argument a /\
    (is_dep (resolve_dep e0 p) = false \/
     (exists x, fits_pointers x p a) \/
     (exists x y, fits_vector x y p a /\ (known e0 x <-> known e0 y))).
  (* the parameter gives a value to x *)
  Definition mentions (x : name) (p : ty) : Prop :=
    (exists c, pointers_to x c (target p)) \/ (exists y, vector_of x y (target p) \/ vector_of y x (target p)).

  Lemma pointers_unique : forall x c y d p, pointers_to x c p -> pointers_to y d p -> x = y.
  Proof.
    intros x c y d. induction p; cbn; intros; try contradiction; auto.
    destruct v; try contradiction. destruct H, H0. congruence.
  Qed.
  Lemma pointers_not_vector : forall x c y z p, pointers_to x c p -> vector_of y z p -> False.
  Proof. intros x c y z p H ->. exact H. Qed.

  Lemma loop : forall e0, agree e0 -> forall ps args, Forall2 (fits e0) ps args ->
    forall e, agree e ->
    exists e', deduce_all e (map (resolve_dep e0) ps) args = Match e' /\ agree e' /\
      (forall y, known e y -> known e' y) /\
      (forall p x, In p ps -> is_dep (resolve_dep e0 p) = true -> mentions x p -> known e' x).
  Proof.
    intros e0 A0 ps args F. induction F as [|p a ps args H F IH]; intros e A.
    - exists e. repeat split; auto. intros p x [].
    - cbn [map deduce_all]. destruct H as [Ha H].
      destruct (is_dep (resolve_dep e0 p)) eqn:D.
      + assert (S1 : exists e1, deduce_one e (resolve_dep e0 p) a = Some e1 /\ agree e1 /\
                     (forall y, known e y -> known e1 y) /\ (forall x, mentions x p -> known e1 x)).
        { destruct H as [H|[(x & H)|(x & y & H & IFF)]]; [discriminate| |].
          - destruct (resolve_fits_pointers e0 x p a A0 H) as [[_ C]|(_ & _ & H')]; [congruence|].
            destruct (deduce_one_pointers e x _ a Ha H' A) as (e1 & E1 & A1 & K1 & X1).
            exists e1. repeat split; auto. intros z [[c M]|[w [M|M]]].
            + destruct H as (c' & _ & Hp & _). rewrite (pointers_unique z c x c' (target p) M Hp). assumption.
            + destruct H as (c' & _ & Hp & _). destruct (pointers_not_vector _ _ _ _ _ Hp M).
            + destruct H as (c' & _ & Hp & _). destruct (pointers_not_vector _ _ _ _ _ Hp M).
          - destruct (resolve_fits_vector e0 x y p a A0 H IFF) as [(_ & _ & C)|(_ & _ & H')]; [congruence|].
            destruct (deduce_one_vector e x y _ a Ha H' A) as (e1 & E1 & A1 & K1 & X1 & Y1).
            exists e1. repeat split; auto. destruct H as (_ & _ & Hp & _). unfold vector_of in Hp.
            intros z [[c M]|[w [M|M]]].
            + rewrite Hp in M. destruct M.
            + unfold vector_of in M. rewrite Hp in M. congruence.
            + unfold vector_of in M. rewrite Hp in M. congruence. }
        destruct S1 as (e1 & E1 & A1 & K1 & M1). rewrite E1.
        destruct (IH e1 A1) as (e2 & E2 & A2 & K2 & M2).
        exists e2. repeat split; auto.
        intros q x [<-|Hq] Dq Mq; [apply K2, M1; assumption | apply (M2 q); assumption].
      + destruct (IH e A) as (e2 & E2 & A2 & K2 & M2). cbn [tl].
        exists e2. repeat split; auto.
        intros q x [<-|Hq] Dq Mq; [congruence | apply (M2 q); assumption].
  Qed.

  Lemma init_env_agree : forall ps k e, (forall p, In p ps -> In p parms) -> agree e ->
    agree (init_env ps (firstn k (map (chosen s) ps)) e).
  Proof.
    induction ps as [|p ps IH]; intros k e Hin A; [destruct k; assumption|].
    destruct k; [assumption|]. cbn. apply IH; [firstorder|].
    apply agree_add; [apply Hin; left; reflexivity | assumption].
  Qed.
  Lemma init_env_known_keep : forall ps ex e x, known e x -> known (init_env ps ex e) x.
  Proof.
    induction ps as [|p ps IH]; intros ex e x K; [assumption|].
    destruct ex; [assumption|]. cbn. apply IH. unfold known. rewrite lookup_add.
    destruct (name_eqb (tparam_name p) x); [discriminate | assumption].
  Qed.
  Lemma init_env_known : forall ps ex e x,
    known (init_env ps ex e) x <-> (known e x \/ exists p, In p (firstn (length ex) ps) /\ tparam_name p = x).
  Proof.
    induction ps as [|p ps IH]; intros ex e x.
    - cbn. rewrite firstn_nil. cbn. firstorder.
    - destruct ex as [|a ex]; cbn [init_env length firstn].
      + cbn. firstorder.
      + rewrite IH. unfold known at 1. rewrite lookup_add.
        destruct (name_eqb (tparam_name p) x) eqn:E.
        * apply name_eqb_true in E. split; [|intros; left; discriminate].
          intros _. right. exists p. split; [left; reflexivity | assumption].
        * apply name_eqb_false in E. fold (known e x). cbn [In]. firstorder congruence.
  Qed.

  Lemma build_chosen : forall e ps k, (forall p, In p ps -> In p parms) -> agree e ->
    (forall p, In p (skipn k ps) -> known e (tparam_name p)) ->
    build_args e ps (firstn k (map (chosen s) ps)) = Some (map (chosen s) ps).
  Proof.
    intros e. induction ps as [|p ps IH]; intros k Hin A K; [reflexivity|].
    destruct k as [|k].
    - cbn [firstn build_args map].
      assert (E : deduced_arg e p = Some (chosen s p)).
      { assert (Kp : known e (tparam_name p)) by (apply K; left; reflexivity).
        assert (Hp : In p parms) by (apply Hin; left; reflexivity).
        destruct p as [x|y b]; cbn [deduced_arg chosen].
        - destruct (agree_inst_type e x Hp A) as [[E _]|[_ C]]; [|contradiction].
          rewrite E. rewrite ordinary_dep by (apply types; assumption). reflexivity.
        - destruct (agree_inst_expr e y b Hp A) as [[E _]|[_ C]]; [|contradiction].
          rewrite E. reflexivity. }
      rewrite E.
      assert (B := IH 0 (fun q h => Hin q (or_intror h)) A (fun q h => K q (or_intror h))).
      cbn [firstn] in B. rewrite B. reflexivity.
    - cbn [firstn build_args map]. rewrite IH; [reflexivity | firstorder | assumption | exact K].
  Qed.
End Choice.

(** C69_complete, with the choice's explicit arguments *)
Theorem complete_choice : forall t s k args,
  NoDup (map tparam_name (t_parms t)) ->
  (forall x, In (PType x) (t_parms t) -> ordinary (c_type s x)) ->
  (forall y b, In (PNon y b) (t_parms t) -> (0 < c_num s y)%N /\ length y <= 15) ->
  k < length (t_parms t) ->
  (let e0 := init_env (t_parms t) (firstn k (map (chosen s) (t_parms t))) [] in
   Forall2 (fits t s e0) (map fst (t_params t)) args /\
   (forall p, In p (skipn k (t_parms t)) ->
      exists q, In q (map fst (t_params t)) /\ is_dep (resolve_dep e0 q) = true /\ mentions (tparam_name p) q)) ->
  template_args t (firstn k (map (chosen s) (t_parms t))) args = Match (map (chosen s) (t_parms t)).
Proof.
  intros t s k args ND TY CN HK. cbv zeta. intros [F M].
  set (e0 := init_env (t_parms t) (firstn k (map (chosen s) (t_parms t))) []) in *.
  assert (A0 : agree t s e0).
  { apply init_env_agree; auto. intros p a _ L. discriminate. }
  assert (L : length args = length (t_params t)).
  { clear - F. assert (H : forall (A B : Type) (R : A -> B -> Prop) x y, Forall2 R x y -> length x = length y)
      by (induction 1; cbn; congruence).
    apply H in F. rewrite map_length in F. congruence. }
  unfold template_args. rewrite L, Nat.ltb_irrefl. cbn [andb].
  rewrite firstn_length, map_length.
  rewrite Nat.min_l by lia.
  destruct (Nat.eqb_spec k (length (t_parms t))); [lia|].
  destruct (Nat.ltb_spec (length (t_parms t)) k); [lia|].
  fold e0.
  destruct (loop t s ND TY CN e0 A0 _ _ F e0 A0) as (e' & E & A' & K' & M'). rewrite E.
  rewrite (build_chosen t s TY e' (t_parms t) k); auto.
  intros p Hp. destruct (M p Hp) as (q & Hq & Dq & Mq). apply (M' q); assumption.
Qed.
