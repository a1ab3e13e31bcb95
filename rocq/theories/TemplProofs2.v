(** The types of an instance, the documented table, joined variabilities, explicit arguments. *)
From Coq Require Import ZArith NArith Bool Ascii List Lia Permutation.
From Verif Require Import TemplModel TemplSpec TemplProofs.
Import ListNotations.

(** ** The types of an instance *)
Lemma resolve_unbound_ordinary : forall t v, ordinary t -> resolve_unbound v t = t.
Proof.
  induction t; cbn; intros v' H; try tauto.
  - destruct v; cbn; congruence.
  - destruct H as [H1 H2]. rewrite IHt by assumption. destruct v; cbn; congruence.
  - rewrite IHt by tauto. reflexivity.
  - rewrite IHt by tauto. reflexivity.
Qed.

Lemma init_env_stands : forall s ps args e,
  Forall2 (stands_for s) ps args -> NoDup (map tparam_name ps) ->
  forall p, In p ps -> exists a, lookup (init_env ps args e) (tparam_name p) = Some a /\ stands_for s p a.
Proof.
  intros s ps args e F. revert e. induction F as [|q a ps args H F IH]; intros e ND p [].
  - subst q. cbn. cbn in ND. inversion ND as [|? ? Hn ND']; subst.
    exists a. split; [|assumption].
    assert (K : forall ps args e', ~ In (tparam_name p) (map tparam_name ps) ->
                lookup (init_env ps args e') (tparam_name p) = lookup e' (tparam_name p)).
    { clear. induction ps as [|q ps IH]; intros args e' N; [reflexivity|].
      destruct args as [|a args]; [reflexivity|]. cbn. rewrite IH by (cbn in N; tauto).
      rewrite lookup_add. destruct (name_eqb (tparam_name q) (tparam_name p)) eqn:E; [|reflexivity].
      apply name_eqb_true in E. exfalso. apply N. left. assumption. }
    rewrite K by assumption. rewrite lookup_add, name_eqb_refl. reflexivity.
  - cbn. cbn in ND. inversion ND as [|? ? Hn ND']; subst. apply IH; assumption.
Qed.

Lemma meaning_value : forall t s args,
  NoDup (map tparam_name (t_parms t)) ->
  Forall2 (stands_for s) (t_parms t) args ->
  (forall x, In (PType x) (t_parms t) -> ordinary (c_type s x)) ->
  (forall y b, In (PNon y b) (t_parms t) -> (0 < c_num s y)%N) ->
  forall p d, closed_value (t_parms t) p ->
  resolve_unbound d (resolve_dep (init_env (t_parms t) args []) p) = meaning s d p.
Proof.
  intros t s args ND F TY CN.
  assert (L := fun p => init_env_stands s (t_parms t) args [] F ND p).
  set (e := init_env (t_parms t) args []) in *.
  assert (CNT : forall n, match n with CFix _ => True | CSym y => exists k, In (PNon y k) (t_parms t) end ->
    resolve_count e n = match n with CFix k => CFix k | CSym x => CFix (c_num s x) end).
  { intros [n|y] H; [reflexivity|]. destruct H as [b Hy]. cbn. unfold inst_expr.
    destruct (L (PNon y b) Hy) as (a & E & S). cbn in E. rewrite E. destruct a; cbn in S; [contradiction|].
    subst z. pose proof (CN y b Hy). destruct (Z.ltb_spec 0 (Z.of_N (c_num s y))); [|lia].
    rewrite N2Z.id. reflexivity. }
  induction p; cbn [closed_value resolve_dep meaning]; intros d H; try contradiction.
  - cbn. destruct v; reflexivity.
  - unfold inst_type. destruct (L (PType x) H) as (a & E & S). cbn in E. rewrite E.
    destruct a as [u|]; cbn in S; [|contradiction]. subst u. cbn [option_map arg_type].
    assert (O : ordinary (keyword v (c_type s x))).
    { destruct v; cbn; auto; apply ordinary_with_var; auto; discriminate. }
    replace (match v with Unb => c_type s x | Uni => with_var Uni (c_type s x) | Vry => with_var Vry (c_type s x) end)
      with (keyword v (c_type s x)) by (destruct v; reflexivity).
    destruct c; apply resolve_unbound_ordinary; [apply ordinary_with_const|]; assumption.
  - cbn. rewrite IHp by assumption. f_equal. destruct v; reflexivity.
  - destruct H as [H1 H2]. cbn [resolve_unbound]. rewrite IHp by assumption. rewrite CNT by assumption. reflexivity.
  - destruct H as [H1 H2]. cbn [resolve_unbound]. rewrite IHp by assumption. rewrite CNT by assumption. reflexivity.
Qed.

(** ** One parameter of type T *)
Lemma init_env_nil : forall ps e, init_env ps [] e = e.
Proof. destruct ps; reflexivity. Qed.

Lemma table : forall x q a r, ordinary a -> (match a with Arr _ _ => False | _ => True end) ->
  template_args (Templ [PType x] [(Parm q false x, false)] r) [] [a] =
  match documented q (var_of a) with
  | Some v => Match [AType (with_var v (with_const false a))]
  | None => NoMatch
  end.
Proof.
  intros x q a r O NA. unfold template_args. cbn -[with_const with_var name_eqb deduce_one documented].
  unfold deduce_one.
  assert (AD : adjust_arg a = a) by (destruct a; cbn in *; tauto).
  assert (DE : decay a = a) by (destruct a; cbn in *; tauto).
  rewrite AD, DE. cbn -[with_const with_var name_eqb documented].
  set (b := with_const false a).
  assert (Ob : ordinary b) by (apply ordinary_with_const; assumption).
  assert (Vb : var_of b = var_of a) by (apply var_with_const; assumption).
  rewrite <- Vb. pose proof (ordinary_var b Ob) as NU.
  assert (B : forall u, inst_type (add_argument [] x (AType u)) x = Some u).
  { intros u. unfold inst_type. rewrite lookup_add, name_eqb_refl. reflexivity. }
  unfold is_vry, is_uni. clearbody b.
  assert (S1 : forall v, v <> Unb -> ordinary (with_var v b)) by (intros; apply ordinary_with_var; auto).
  pose proof (with_var_same b Ob) as W.
  destruct q; [| |]; destruct (var_of b) eqn:E; cbn -[with_var inst_type add_argument]; try congruence;
    unfold is_vry, is_uni; rewrite ?E; cbn -[with_var inst_type add_argument];
    try reflexivity; change (inst_type [] x) with (@None ty); cbv iota; rewrite ?B; rewrite ?ordinary_dep by (auto; apply S1; discriminate); rewrite ?W; reflexivity.
Qed.

(** ** Several parameters of type T *)
Section Join.
  Variable B : name -> ty.
  Hypothesis base : forall x, ordinary (B x) /\ is_const (B x) = false.

  Definition joined (x : name) (l : list (name * vr)) : ty :=
    with_var (if some_varying x l then Vry else Uni) (B x).
  Definition seen (x : name) (l : list (name * vr)) : bool := existsb (fun p => name_eqb (fst p) x) l.

  Lemma joined_ordinary : forall x l, ordinary (joined x l).
  Proof. intros. unfold joined. apply ordinary_with_var; [destruct (some_varying x l); discriminate | apply base]. Qed.

  Lemma check_join : forall e done x v, v <> Unb ->
    (forall y, lookup e y = if seen y done then Some (AType (joined y done)) else None) ->
    exists e', check_type e (Some (x, with_var v (B x))) = Some e' /\
      (forall y, lookup e' y = if seen y (done ++ [(x, v)]) then Some (AType (joined y (done ++ [(x, v)]))) else None).
  Proof.
    intros e done x v NU I. destruct (base x) as [O C].
    assert (SV : forall y, some_varying y (done ++ [(x, v)]) =
                 some_varying y done || (name_eqb x y && vr_eqb v Vry)).
    { intros y. unfold some_varying. rewrite existsb_app. cbn. rewrite orb_false_r. reflexivity. }
    assert (SN : forall y, seen y (done ++ [(x, v)]) = seen y done || name_eqb x y).
    { intros y. unfold seen. rewrite existsb_app. cbn. rewrite orb_false_r. reflexivity. }
    assert (NS : seen x done = false -> some_varying x done = false).
    { unfold seen, some_varying. intros H. rewrite <- not_true_iff_false in *. intros K. apply H.
      apply existsb_exists in K. destruct K as (p & Hp & K). apply andb_prop in K.
      apply existsb_exists. exists p. tauto. }
    unfold check_type, inst_type. rewrite (I x).
    destruct (seen x done) eqn:SX; cbn [option_map arg_type].
    - replace (joined x done) with (with_var (if some_varying x done then Vry else Uni) (B x)) by reflexivity.
      destruct (some_varying x done) eqn:SVX; cbv iota.
      + (* varying before *)
        destruct v; [congruence| |].
        * rewrite (proj1 (not_true_iff_false (type_equal (with_var Vry (B x)) (with_var Uni (B x))))).
          2:{ intros H. apply type_equal_eq in H; try (apply ordinary_with_var; auto; discriminate).
              apply (f_equal var_of) in H. rewrite !var_with_var in H by assumption. discriminate. }
          unfold is_uni, is_vry. rewrite !var_with_var by assumption. cbn.
          exists e. split; [reflexivity|]. intros y. rewrite SN. unfold joined. rewrite SV.
          rewrite (I y). unfold joined. rewrite andb_false_r, orb_false_r.
          destruct (name_eqb x y) eqn:Exy; [apply name_eqb_true in Exy; subst y; rewrite SX; reflexivity|].
          rewrite orb_false_r. reflexivity.
        * rewrite type_equal_refl. exists e. split; [reflexivity|].
          intros y. rewrite SN. unfold joined. rewrite SV.
          rewrite (I y). unfold joined. rewrite andb_true_r.
          destruct (name_eqb x y) eqn:Exy;
            [apply name_eqb_true in Exy; subst y; rewrite SX, SVX; reflexivity|].
          rewrite !orb_false_r. reflexivity.
      + destruct v; [congruence| |].
        * rewrite type_equal_refl. exists e. split; [reflexivity|].
          intros y. rewrite SN. unfold joined. rewrite SV.
          rewrite (I y). unfold joined. rewrite andb_false_r, orb_false_r.
          destruct (name_eqb x y) eqn:Exy; [apply name_eqb_true in Exy; subst y; rewrite SX; reflexivity|].
          rewrite orb_false_r. reflexivity.
        * rewrite (proj1 (not_true_iff_false (type_equal (with_var Uni (B x)) (with_var Vry (B x))))).
          2:{ intros H. apply type_equal_eq in H; try (apply ordinary_with_var; auto; discriminate).
              apply (f_equal var_of) in H. rewrite !var_with_var in H by assumption. discriminate. }
          unfold is_uni, is_vry. rewrite !var_with_var by assumption.
          rewrite with_var_twice by assumption. rewrite type_equal_refl. cbn -[with_var].
          exists (add_argument e x (AType (with_var Vry (B x)))). split; [reflexivity|].
          intros y. rewrite SN. unfold joined. rewrite SV. rewrite lookup_add.
          rewrite andb_true_r.
          destruct (name_eqb x y) eqn:Exy.
          -- apply name_eqb_true in Exy. subst y. rewrite !orb_true_r. reflexivity.
          -- rewrite (I y). rewrite !orb_false_r. reflexivity.
    - exists (add_argument e x (AType (with_var v (B x)))). split; [reflexivity|].
      intros y. rewrite SN. unfold joined. rewrite SV. rewrite lookup_add.
      destruct (name_eqb x y) eqn:Exy.
      + apply name_eqb_true in Exy. subst y. rewrite SX, (NS eq_refl). cbn.
        destruct v; [congruence| |]; reflexivity.
      + rewrite (I y). cbn. rewrite !orb_false_r. reflexivity.
  Qed.

  Lemma join_loop : forall (l : list (name * vr)) args done e,
    Forall2 (fun p a => snd p <> Unb /\ with_const false (decay (value_of a)) = with_var (snd p) (B (fst p))) l args ->
    (forall y, lookup e y = if seen y done then Some (AType (joined y done)) else None) ->
    exists e', deduce_all e (map (fun p => Parm Unb false (fst p)) l) args = Match e' /\
      (forall y, lookup e' y = if seen y (done ++ l) then Some (AType (joined y (done ++ l))) else None).
  Proof.
    intros l args done e F. revert done e. induction F as [|[x v] a l args [NU H] F IH]; intros done e I.
    - exists e. rewrite app_nil_r. split; [reflexivity | exact I].
    - cbn [map deduce_all fst]. change (is_dep (Parm Unb false x)) with true. cbv iota.
      cbn [fst snd] in H, NU.
      assert (D : deduce_one e (Parm Unb false x) a = check_type e (Some (x, with_var v (B x)))).
      { unfold deduce_one. cbn [with_const]. change (adjust_arg a) with (value_of a). rewrite H. reflexivity. }
      rewrite D. destruct (check_join e done x v NU I) as (e1 & E1 & I1). rewrite E1.
      destruct (IH (done ++ [(x, v)]) e1 I1) as (e2 & E2 & I2). exists e2. split; [exact E2|].
      intros y. rewrite (I2 y). rewrite <- app_assoc. reflexivity.
  Qed.

  Lemma resolve_nil_parms : forall (l : list (name * vr)),
    map (resolve_dep []) (map (fun p => Parm Unb false (fst p)) l) = map (fun p => Parm Unb false (fst p)) l.
  Proof. induction l as [|p l IH]; [reflexivity|]. cbn [map]. rewrite IH. reflexivity. Qed.

  Theorem join : forall xs (l : list (name * vr)) args r, xs <> [] ->
    (forall x, In x xs -> exists v, In (x, v) l) ->
    Forall2 (fun p a => snd p <> Unb /\ with_const false (decay (value_of a)) = with_var (snd p) (B (fst p))) l args ->
    template_args (Templ (map PType xs) (map (fun p => (Parm Unb false (fst p), false)) l) r) [] args =
    Match (map (fun x => AType (joined x l)) xs).
  Proof.
    intros xs l args r NE COV F. unfold template_args. cbn [t_parms t_params].
    assert (L : length args = length l).
    { assert (H : forall (A B : Type) (R : A -> B -> Prop) x y, Forall2 R x y -> length x = length y)
        by (induction 1; cbn; congruence). apply H in F. congruence. }
    rewrite !map_length, L, Nat.ltb_irrefl. cbn [andb length].
    destruct (Nat.eqb_spec 0 (length xs)) as [Z|_]; [destruct xs; [congruence | discriminate]|].
    destruct (Nat.ltb_spec (length xs) 0) as [Z|_]; [lia|].
    rewrite init_env_nil. rewrite (map_map (fun p : name * vr => (Parm Unb false (fst p), false)) fst). cbn [fst]. rewrite resolve_nil_parms.
    destruct (join_loop l args [] [] F (fun y => eq_refl)) as (e & E & I). rewrite E. cbn [app] in I.
    assert (BA : build_args e (map PType xs) [] = Some (map (fun x => AType (joined x l)) xs)).
    { clear NE. induction xs as [|x xs IH]; [reflexivity|].
      cbn [map build_args]. rewrite IH by (intros; apply COV; right; assumption).
      unfold deduced_arg, inst_type. rewrite (I x).
      assert (S : seen x l = true).
      { destruct (COV x (or_introl eq_refl)) as [v Hv]. apply existsb_exists. exists (x, v). split; [assumption|].
        apply name_eqb_refl. }
      rewrite S. cbn [option_map arg_type]. rewrite ordinary_dep by apply joined_ordinary. reflexivity. }
    rewrite BA. reflexivity.
  Qed.

  Lemma some_varying_perm : forall x l l', Permutation l l' -> some_varying x l = some_varying x l'.
  Proof.
    intros x l l' P. unfold some_varying.
    destruct (existsb _ l) eqn:E; destruct (existsb _ l') eqn:E'; auto.
    - apply existsb_exists in E. destruct E as (p & Hp & H).
      assert (K : existsb (fun p => name_eqb (fst p) x && vr_eqb (snd p) Vry) l' = true)
        by (apply existsb_exists; exists p; split; [eapply Permutation_in; eauto | assumption]). congruence.
    - apply existsb_exists in E'. destruct E' as (p & Hp & H).
      assert (K : existsb (fun p => name_eqb (fst p) x && vr_eqb (snd p) Vry) l = true)
        by (apply existsb_exists; exists p; split; [eapply Permutation_in; [apply Permutation_sym|]; eauto | assumption]).
      congruence.
  Qed.
End Join.

(** ** Explicit arguments *)
Lemma build_args_explicit : forall e ps ex r, length ex <= length ps -> build_args e ps ex = Some r ->
  firstn (length ex) r = ex /\ length r = length ps.
Proof.
  intros e. induction ps as [|p ps IH]; intros ex r L H; cbn in H.
  - injection H as <-. destruct ex; [auto | cbn in L; lia].
  - destruct ex as [|a ex].
    + destruct (deduced_arg e p) as [a|]; [|discriminate].
      destruct (build_args e ps []) as [r'|] eqn:E; [|discriminate]. injection H as <-.
      destruct (IH [] r' (Nat.le_0_l _) E) as [_ L']. split; [reflexivity | cbn; congruence].
    + destruct (build_args e ps ex) as [r'|] eqn:E; [|discriminate]. injection H as <-.
      cbn in L. destruct (IH ex r' ltac:(lia) E) as [F' L']. cbn. rewrite F'. split; congruence.
Qed.
Theorem explicit_prefix : forall t ex args r, template_args t ex args = Match r ->
  length ex <= length (t_parms t) /\ firstn (length ex) r = ex /\ length r = length (t_parms t).
Proof.
  intros t ex args r H. unfold template_args in H.
  destruct (Nat.ltb _ _); [discriminate|].
  destruct (Nat.ltb _ _ && _)%bool; [discriminate|].
  destruct (Nat.eqb_spec (length ex) (length (t_parms t))) as [E|NE].
  - destruct (check_explicit _ _); [|discriminate]. injection H as <-. rewrite E at 1.
    repeat split; [lia | rewrite firstn_all; reflexivity | exact E].
  - destruct (Nat.ltb_spec (length (t_parms t)) (length ex)); [discriminate|].
    destruct (deduce_all _ _ _) as [e'| |]; try discriminate.
    destruct (build_args e' (t_parms t) ex) as [r'|] eqn:B; [|discriminate]. injection H as <-.
    split; [lia|]. apply (build_args_explicit e'); [lia | assumption].
Qed.

(** ** Complete arguments give complete template arguments *)
Definition env_ok (e : env) : Prop := forall x a, lookup e x = Some a -> ordinary_arg a.
Lemma env_ok_add : forall e x a, env_ok e -> ordinary_arg a -> env_ok (add_argument e x a).
Proof. intros e x a H O y b L. rewrite lookup_add in L. destruct (name_eqb x y); [congruence | eauto]. Qed.
Lemma inst_type_ok : forall e x u, env_ok e -> inst_type e x = Some u -> ordinary u.
Proof.
  intros e x u H E. unfold inst_type in E. destruct (lookup e x) as [a|] eqn:L; [|discriminate].
  cbn in E. injection E as <-. apply H in L. destruct a; cbn in *; [assumption | discriminate].
Qed.
Lemma deduce_param_ok : forall p a x u, ordinary a -> deduce_param p a = Some (x, u) -> ordinary u.
Proof.
  induction p; intros a y u O H; cbn in H; try discriminate.
  - set (b := if c && (is_const a && negb (is_ref a)) then with_const false a else a) in *.
    assert (Ob : ordinary b) by (unfold b; destruct (c && _)%bool; [apply ordinary_with_const|]; assumption).
    destruct v.
    + congruence.
    + destruct (is_vry b); [discriminate|]. destruct (is_uni b); injection H as <- <-; auto.
      apply ordinary_with_var; auto; discriminate.
    + destruct (is_vry b); injection H as <- <-; auto.
      apply ordinary_with_var; auto; discriminate.
  - destruct a; try discriminate. cbn in O. destruct O. eauto.
  - destruct a; try discriminate. cbn in O. contradiction.
Qed.
Lemma check_type_ok : forall e d e', env_ok e -> (forall x u, d = Some (x, u) -> ordinary u) ->
  check_type e d = Some e' -> env_ok e'.
Proof.
  intros e [[x u]|] e' H D E; cbn in E; [|discriminate]. specialize (D x u eq_refl).
  destruct (inst_type e x).
  - destruct (type_equal t u); [injection E as <-; assumption|].
    destruct (is_uni t && is_vry u && _)%bool.
    + injection E as <-. apply env_ok_add; assumption.
    + destruct (is_vry t && is_uni u)%bool; [injection E as <-; assumption | discriminate].
  - injection E as <-. apply env_ok_add; assumption.
Qed.
Lemma check_value_ok : forall e x b z e', env_ok e -> check_value e x b z = Some e' -> env_ok e'.
Proof.
  intros e x b z e' H E. unfold check_value in E. destruct (inst_expr e x) as [[b' z']|].
  - destruct (Nat.eqb b b' && Z.eqb z z')%bool; [injection E as <-; assumption | discriminate].
  - injection E as <-. apply env_ok_add; [assumption | exact I].
Qed.
Lemma deduce_one_ok : forall e p a e', env_ok e -> argument a -> deduce_one e p a = Some e' -> env_ok e'.
Proof.
  intros e p a e' H A E. unfold deduce_one in E.
  assert (Ov : ordinary (adjust_arg a)) by (destruct a; cbn in *; auto; contradiction).
  assert (Od : ordinary (with_const false (decay (adjust_arg a)))).
  { apply ordinary_with_const. destruct (adjust_arg a); cbn in *; try tauto. split; [discriminate | tauto]. }
  assert (G : forall q b, ordinary b ->
    match q with Vec pe pn => match b with Vec ae an => deduce_vector e pe pn ae an | _ => None end
               | _ => check_type e (deduce_param q b) end = Some e' -> env_ok e').
  { intros q b Ob Q.
    assert (K : check_type e (deduce_param q b) = Some e' -> env_ok e').
    { apply check_type_ok; [assumption|]. intros x u. apply deduce_param_ok; assumption. }
    destruct q; auto. destruct b; try discriminate. unfold deduce_vector in Q. destruct q; try discriminate.
    destruct n; try discriminate. destruct (check_type e _) as [e1|] eqn:C; [|discriminate].
    eapply check_value_ok; [|exact Q]. eapply check_type_ok; [exact H | | exact C].
    intros z u. apply deduce_param_ok. cbn in Ob. tauto. }
  destruct p as [v c b|v c x|v c b|v c b|b n|b n]; cbn [with_const] in E.
  - exact (G (Atom v false b) _ Od E).
  - exact (G (Parm v false x) _ Od E).
  - exact (G (Ptr v false b) _ Od E).
  - exact (G b _ Ov E).
  - exact (G (Vec (with_const false b) n) _ Od E).
  - exact (G (Arr (with_const false b) n) _ Od E).
Qed.
Lemma deduce_all_ok : forall ps args e e', env_ok e -> Forall argument args ->
  deduce_all e ps args = Match e' -> env_ok e'.
Proof.
  induction ps as [|p ps IH]; intros args e e' H F E; cbn in E; [injection E as <-; assumption|].
  destruct (is_dep p).
  - destruct args as [|a args]; [discriminate|]. inversion F; subst.
    destruct (deduce_one e p a) as [e1|] eqn:D; [|discriminate].
    eapply IH; [|eassumption|exact E]. eapply deduce_one_ok; eauto.
  - eapply IH; [exact H| |exact E]. destruct F; cbn; auto.
Qed.
Lemma init_env_ok : forall ps ex e, env_ok e -> Forall ordinary_arg ex -> env_ok (init_env ps ex e).
Proof.
  induction ps as [|p ps IH]; intros ex e H F; [assumption|].
  destruct F as [|a ex O F]; [assumption|]. cbn. apply IH; [apply env_ok_add|]; assumption.
Qed.
Lemma build_args_ok : forall e ps ex r, env_ok e -> Forall ordinary_arg ex -> build_args e ps ex = Some r ->
  Forall ordinary_arg r.
Proof.
  intros e. induction ps as [|p ps IH]; intros ex r H F E; cbn in E; [injection E as <-; constructor|].
  destruct F as [|a ex O F].
  - destruct (deduced_arg e p) as [a|] eqn:D; [|discriminate].
    destruct (build_args e ps []) as [r'|] eqn:B; [|discriminate]. injection E as <-.
    constructor; [|eapply IH; eauto].
    destruct p; cbn in D.
    + destruct (inst_type e x) as [u|] eqn:T; [|discriminate]. destruct (is_dep u); [discriminate|].
      injection D as <-. cbn. eapply inst_type_ok; eauto.
    + destruct (inst_expr e x) as [[b' z]|]; [|discriminate]. injection D as <-. exact I.
  - destruct (build_args e ps ex) as [r'|] eqn:B; [|discriminate]. injection E as <-.
    constructor; [assumption|]. eapply IH; eauto.
Qed.
Theorem template_args_ok : forall t ex args r, Forall ordinary_arg ex -> Forall argument args ->
  template_args t ex args = Match r -> Forall ordinary_arg r.
Proof.
  intros t ex args r F A H. unfold template_args in H.
  destruct (Nat.ltb _ _); [discriminate|].
  destruct (Nat.ltb _ _ && _)%bool; [discriminate|].
  destruct (Nat.eqb (length ex) (length (t_parms t))).
  - destruct (check_explicit _ _); [|discriminate]. injection H as <-. assumption.
  - destruct (Nat.ltb _ _); [discriminate|].
    destruct (deduce_all _ _ _) as [e'| |] eqn:D; try discriminate.
    destruct (build_args e' (t_parms t) ex) as [r'|] eqn:B; [|discriminate]. injection H as <-.
    eapply build_args_ok; [|exact F|exact B].
    eapply deduce_all_ok; [|exact A|exact D].
    apply init_env_ok; [|assumption]. intros x a L. discriminate.
Qed.
