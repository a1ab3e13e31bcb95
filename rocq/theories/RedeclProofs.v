From Coq Require Import ZArith List Bool Lia.
From Verif Require Import RedeclModel RedeclSpec.
Import ListNotations.
Local Open Scope Z_scope.

Lemma sclass_eqb_spec a b : sclass_eqb a b = true <-> a = b.
Proof. destruct a, b; cbn; split; congruence. Qed.
Lemma fkind_eqb_spec a b : fkind_eqb a b = true <-> a = b.
Proof. destruct a, b; cbn; split; congruence. Qed.
Lemma bools_eqb_spec a : forall b, bools_eqb a b = true <-> a = b.
Proof.
  induction a as [|x a IH]; intros [|y b]; cbn; split; try congruence.
  - intros H. apply andb_prop in H as [H1 H2]. apply eqb_prop in H1. apply IH in H2. congruence.
  - intros [= -> ->]. rewrite eqb_reflx. now apply IH.
Qed.
Lemma ty_eqb_spec a b : ty_eqb a b = true <-> a = b.
Proof.
  unfold ty_eqb. destruct a as [a1 a2 a3], b as [b1 b2 b3]. cbn. rewrite !andb_true_iff, Z.eqb_eq, bools_eqb_spec.
  split; [intros [[-> H] ->]; apply eqb_prop in H; congruence|intros [= -> -> ->]; rewrite eqb_reflx; auto].
Qed.
Lemma tys_eqb_spec a : forall b, tys_eqb a b = true <-> a = b.
Proof.
  induction a as [|x a IH]; intros [|y b]; cbn; split; try congruence.
  - intros H. apply andb_prop in H as [H1 H2]. apply ty_eqb_spec in H1. apply IH in H2. congruence.
  - intros [= -> ->]. apply andb_true_intro. split; [now apply ty_eqb_spec|now apply IH].
Qed.
Lemma ftype_eqb_spec a b : ftype_eqb a b = true <-> same_type a b.
Proof.
  unfold ftype_eqb, same_type. rewrite !andb_true_iff, ty_eqb_spec, fkind_eqb_spec, tys_eqb_spec, eqb_true_iff. tauto.
Qed.
Lemma same_refl a : same_type a a.
Proof. unfold same_type. auto. Qed.
Lemma same_sym a b : same_type a b -> same_type b a.
Proof. unfold same_type. intuition congruence. Qed.
Lemma same_trans a b c : same_type a b -> same_type b c -> same_type a c.
Proof. unfold same_type. intuition congruence. Qed.

(** Errors stay. *)
Lemma err_if b s : err (error_if b s) = (b || err s).
Proof. now destruct b. Qed.
Lemma add_var_err s d r : err s = true -> err (add_var s d r) = true.
Proof.
  intros E. unfold add_var. destruct (negb _); [reflexivity|]. destruct (sclass_eqb _ _); [reflexivity|]. cbv zeta.
  set (s' := error_if _ s). assert (err s' = true) by (unfold s'; rewrite err_if, E; apply orb_true_r). clearbody s'.
  destruct (lookup_var _ _); [|easy]. destruct (_ || _); [reflexivity|]. destruct (_ && _); [reflexivity|easy].
Qed.
Lemma add_fun_err s d : err s = true -> err (add_fun s d) = true.
Proof.
  intros E. unfold add_fun. destruct (lookup_var _ _); [reflexivity|]. cbv zeta.
  destruct (overloads _ _ _) as [e| |e]; [rewrite err_if, E; apply orb_true_r|reflexivity|].
  destruct (_ && _); [reflexivity|]. cbn [err]. rewrite !err_if, E. now rewrite !orb_true_r.
Qed.
Lemma add_body_err s d b : err (add_body s d b) = err s.
Proof. unfold add_body. now destruct (lookup_fun _ _ _). Qed.
Lemma step_err s i : err s = true -> err (step s i) = true.
Proof.
  intros E. destruct i as [d|d [b|]]; cbn; [now apply add_var_err|rewrite add_body_err|]; now apply add_fun_err.
Qed.
Lemma read_app h i : read (h ++ [i]) = step (read h) i.
Proof. unfold read. now rewrite fold_left_app. Qed.
Lemma read_ok_prefix h i : err (read (h ++ [i])) = false -> err (read h) = false.
Proof.
  rewrite read_app. intros E. destruct (err (read h)) eqn:X; [|reflexivity]. apply (step_err _ i) in X. congruence.
Qed.

(** Variables. *)
Lemma var_decls_app n h i : var_decls n (h ++ [i]) =
  var_decls n h ++ match i with IVar d => if d_name d =? n then [d] else [] | IFun _ _ => [] end.
Proof. unfold var_decls. rewrite flat_map_app. cbn. now rewrite app_nil_r. Qed.

Record var_ok (h : list item) (g : gvar) : Prop := {
  vo_class : exists d0 ds, var_decls (g_name g) h = d0 :: ds /\ g_class g = d_class d0 /\
               g_internal g = sclass_eqb (d_class d0) SStatic /\ (d_class d0 <> SExtern -> ds = []);
  vo_last : exists ds d, var_decls (g_name g) h = ds ++ [d] /\ g_readonly g = d_const d /\ g_value g = const_value d;
  vo_init : g_init g = hd_error (map start_value (var_defs (g_name g) h));
  vo_type : forall d, In d (var_decls (g_name g) h) ->
              d_type d = g_type g /\ d_class d <> SExternC /\ (d_class d = SExtern -> d_init d = None)
}.
Record vars_ok (h : list item) (s : state) : Prop := {
  vs_each : forall g, In g (vars s) -> var_ok h g;
  vs_all : forall n, var_decls n h <> [] -> exists g, In g (vars s) /\ g_name g = n
}.

Lemma var_defs_app n h i : var_defs n (h ++ [i]) =
  var_defs n h ++ match i with IVar d => if (d_name d =? n) && negb (is_extern d) then [d] else [] | IFun _ _ => [] end.
Proof.
  unfold var_defs. rewrite var_decls_app, filter_app. f_equal. destruct i as [d|d b]; [|reflexivity].
  destruct (d_name d =? n); [|reflexivity]. cbn. now destruct (is_extern d).
Qed.

Lemma var_ok_other h g i : (forall d, i = IVar d -> d_name d <> g_name g) -> var_ok h g -> var_ok (h ++ [i]) g.
Proof.
  intros Hi [C L I T]. assert (E : var_decls (g_name g) (h ++ [i]) = var_decls (g_name g) h).
  { rewrite var_decls_app. destruct i as [d|]; [|apply app_nil_r]. specialize (Hi d eq_refl).
    destruct (Z.eqb_spec (d_name d) (g_name g)); [easy|apply app_nil_r]. }
  constructor; unfold var_defs; now rewrite E.
Qed.

Lemma lookup_var_some n vs g : lookup_var n vs = Some g -> In g vs /\ g_name g = n.
Proof. intros H. apply find_some in H as [H1 H2]. now apply Z.eqb_eq in H2. Qed.
Lemma lookup_var_none n vs g : lookup_var n vs = None -> In g vs -> g_name g <> n.
Proof. intros H I. apply (find_none _ _ H) in I. now apply Z.eqb_neq in I. Qed.

Lemma hd_error_app {A} (a b : list A) : hd_error (a ++ b) = match hd_error a with Some x => Some x | None => hd_error b end.
Proof. now destruct a. Qed.

Lemma initializer_spec d : d_class d <> SExternC ->
  initializer d = hd_error (map start_value (if negb (is_extern d) then [d] else [])).
Proof. unfold initializer, is_extern, start_value. destruct (d_class d); cbn; congruence. Qed.

Lemma step_var h s d : vars_ok h s -> err (add_var s d (d_const d)) = false ->
  vars_ok (h ++ [IVar d]) (add_var s d (d_const d)) /\ funs (add_var s d (d_const d)) = funs s /\
  bodies (add_var s d (d_const d)) = bodies s /\ lookup_funs (d_name d) (funs s) = [] /\
  (forall g, In g (vars (add_var s d (d_const d))) -> g_name g = d_name d \/ In g (vars s)).
Proof.
  intros [VE VA]. unfold add_var. destruct (lookup_funs (d_name d) (funs s)) eqn:LF; cbn [negb]; [|discriminate].
  destruct (sclass_eqb (d_class d) SExternC) eqn:EC; [discriminate|]. cbv zeta.
  assert (NC : d_class d <> SExternC) by (intros X; apply sclass_eqb_spec in X; congruence).
  set (bad := sclass_eqb (d_class d) SExtern && _).
  assert (V : vars (error_if bad s) = vars s) by now destruct bad.
  assert (F : funs (error_if bad s) = funs s) by now destruct bad.
  assert (B : bodies (error_if bad s) = bodies s) by now destruct bad.
  assert (X : forall s', err (error_if bad s) = false -> err s' = err (error_if bad s) -> d_class d = SExtern -> d_init d = None).
  { intros s' X1 _ X2. rewrite err_if in X1. apply orb_false_elim in X1 as [X1 _]. unfold bad in X1.
    rewrite X2 in X1. cbn in X1. destruct (d_init d); congruence. }
  rewrite V, F, B. destruct (lookup_var (d_name d) (vars s)) as [g|] eqn:LV.
  - apply lookup_var_some in LV as [Ig Ng].
    destruct (ty_eqb (g_type g) (d_type d)) eqn:ET; cbn [negb orb]; [|discriminate]. apply ty_eqb_spec in ET.
    destruct (is_any_extern (g_class g)) eqn:AE; cbn [negb andb]; rewrite ?andb_false_r, ?andb_true_r.
    2:{ (* not extern: the variable has an initializer *)
      destruct (negb _); [discriminate|]. destruct (VE g Ig) as [(d0 & ds & E1 & E2 & E3 & E4) L I T].
      assert (D0 : d_class d0 <> SExtern) by (intros Y; rewrite <- E2 in Y; rewrite Y in AE; discriminate).
      rewrite I. unfold var_defs. rewrite E1, (E4 D0). cbn [filter].
      assert (is_extern d0 = false) as -> by (unfold is_extern; destruct (d_class d0); congruence).
      cbn. discriminate. }
    cbn [err]. intros Ee. specialize (X _ Ee eq_refl). cbn [vars funs bodies].
    set (g' := {| g_name := _ |}). assert (Ng' : g_name g' = d_name d) by (cbn; easy).
    assert (OK' : var_ok (h ++ [IVar d]) g').
    { destruct (VE g Ig) as [(d0 & ds & E1 & E2 & E3 & E4) L I T]. rewrite Ng in *.
      assert (DD : var_decls (d_name d) (h ++ [IVar d]) = var_decls (d_name d) h ++ [d])
        by (rewrite var_decls_app, Z.eqb_refl; reflexivity).
      constructor; rewrite ?Ng'.
      - exists d0, (ds ++ [d]). rewrite DD, E1. split; [reflexivity|]. split; [exact E2|]. split; [exact E3|].
        intros Y. rewrite <- E2 in Y. destruct (T d0) as (_ & T2 & _); [rewrite E1; now left|].
        rewrite <- E2 in T2. destruct (g_class g); cbn in AE; congruence.
      - exists (var_decls (d_name d) h), d. auto.
      - rewrite var_defs_app, Z.eqb_refl, map_app, hd_error_app. cbn [andb]. cbn [g' g_init]. rewrite I.
        destruct (hd_error _); [reflexivity|]. now apply initializer_spec.
      - intros d1 H1. rewrite DD in H1. apply in_app_or in H1 as [H1|[<-|[]]]; [now apply T|]. repeat split; auto. }
    split; [|split; [reflexivity|split; [reflexivity|split; [reflexivity|]]]].
    + constructor; cbn [vars].
      * intros v Hv. unfold replace_var in Hv. apply in_map_iff in Hv as (w & <- & Hw).
        destruct (Z.eqb_spec (g_name w) (g_name g')) as [Y|Y]; [exact OK'|]. apply var_ok_other; [|now apply VE].
        intros ? [= <-]. rewrite Ng' in Y. congruence.
      * intros n Hn. destruct (Z.eq_dec n (d_name d)) as [->|Nn].
        -- exists g'. split; [|easy]. unfold replace_var. apply in_map_iff. exists g. rewrite Ng, Ng', Z.eqb_refl. auto.
        -- destruct (VA n) as (v & Hv & Nv).
           { intros Y. apply Hn. rewrite var_decls_app, Y. destruct (Z.eqb_spec (d_name d) n); [congruence|reflexivity]. }
           exists v. split; [|easy]. unfold replace_var. apply in_map_iff. exists v. split; [|easy].
           destruct (Z.eqb_spec (g_name v) (g_name g')); [congruence|reflexivity].
    + intros v Hv. unfold replace_var in Hv. apply in_map_iff in Hv as (w & <- & Hw).
      destruct (Z.eqb_spec (g_name w) (g_name g')) as [Y|Y]; [now left|now right].
  - cbn [err]. intros Ee. specialize (X _ Ee eq_refl). cbn [vars funs bodies].
    set (g' := {| g_name := _ |}).
    assert (Em : var_decls (d_name d) h = []).
    { destruct (var_decls (d_name d) h) eqn:Y; [reflexivity|]. destruct (VA (d_name d)) as (w & Hw & Nw); [congruence|].
      destruct (lookup_var_none _ _ _ LV Hw Nw). }
    assert (DD : var_decls (d_name d) (h ++ [IVar d]) = [d]) by (rewrite var_decls_app, Z.eqb_refl, Em; reflexivity).
    split; [|split; [reflexivity|split; [reflexivity|split; [reflexivity|]]]].
    + constructor; cbn [vars].
      * intros v Hv. apply in_app_or in Hv as [Hv|[<-|[]]].
        -- apply var_ok_other; [|now apply VE]. intros ? [= <-] Y. now apply (lookup_var_none _ _ _ LV Hv).
        -- constructor; cbn [g' g_name g_class g_internal g_readonly g_value g_init g_type]; rewrite ?DD.
           ++ exists d, []. auto.
           ++ exists [], d. auto.
           ++ unfold var_defs. rewrite DD. cbn [filter]. rewrite initializer_spec by easy. reflexivity.
           ++ intros d1 [<-|[]]. auto.
      * intros n Hn. destruct (Z.eq_dec n (d_name d)) as [->|Nn].
        -- exists g'. split; [apply in_or_app; right; now left|reflexivity].
        -- destruct (VA n) as (v & Hv & Nv).
           { intros Y. apply Hn. rewrite var_decls_app, Y. destruct (Z.eqb_spec (d_name d) n); [congruence|reflexivity]. }
           exists v. split; [apply in_or_app; now left|easy].
    + intros v Hv. apply in_app_or in Hv as [Hv|[<-|[]]]; [now right|now left].
Qed.
