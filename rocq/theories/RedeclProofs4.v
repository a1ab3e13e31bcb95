From Coq Require Import ZArith List Bool Lia.
From Verif Require Import RedeclModel RedeclSpec RedeclProofs RedeclProofs2 RedeclProofs3.
Import ListNotations.
Local Open Scope Z_scope.

Lemma gfold_conv int : forall L s, ForallOrdPairs apart (funs s) -> err s = false ->
  (forall f, In f (funs s) -> okrun int f (mine (s_name f) (s_type f) L)) -> err (fold_left (gstep int) L s) = false.
Proof.
  induction L as [|[[n t] c] L IH]; intros s A E O; [exact E|]. cbn [fold_left].
  unfold gstep at 2. rewrite E, (generate_at_ok int n t c _ A).
  set (h := fun f => if hit n t f then one int f c else f) in *.
  assert (K : forall f, s_name (h f) = s_name f /\ s_type (h f) = s_type f).
  { intros f. unfold h. destruct (hit n t f); [|auto]. destruct (one_keeps int f c) as (? & ? & _). auto. }
  apply IH; cbn [funs err].
  - apply FOP_map; [|exact A]. intros a b. unfold apart. destruct (K a) as [-> ->], (K b) as [-> ->]. auto.
  - apply not_true_is_false. intros X. apply existsb_exists in X as (f & F1 & F2). apply andb_prop in F2 as [F2 F3].
    specialize (O f F1). cbn [mine flat_map] in O. fold (hit n t f) in O. rewrite F2 in O. destruct O as [O _].
    unfold has_code in F3. now rewrite O in F3.
  - intros f Hf. apply in_map_iff in Hf as (f0 & <- & H0). destruct (K f0) as [-> ->]. specialize (O f0 H0).
    cbn [mine flat_map] in O. fold (hit n t f0) in O. fold (mine (s_name f0) (s_type f0) L) in O. unfold h.
    destruct (hit n t f0); [now destruct O|exact O].
Qed.

Lemma fun_known h s f : funs_ok h s -> In f (funs s) ->
  exists d, In d (fun_decls (s_name f) h) /\ same_type (s_type f) (fd_type d).
Proof.
  intros F H. destruct (fo_first _ _ F f H) as (d & ds & D & _). exists d.
  assert (I : In d (decls_of (s_name f) (s_type f) h)) by (rewrite D; now left).
  apply filter_In in I as [I1 I2]. split; [exact I1|now apply ftype_eqb_spec].
Qed.

Lemma overloads_total t : forall fs, (forall f, In f fs -> same_type (s_type f) t \/
    (f_params (s_type f) <> f_params t /\ f_kind (s_type f) <> KExport /\ f_kind t <> KExport /\ f_kind t <> KExternC)) ->
  overloads false t fs = Same false \/ (overloads false t fs = New false /\ (f_kind t = KExternC -> fs = [])).
Proof.
  induction fs as [|f fs IH]; intros H; cbn; [auto|]. destruct (ftype_eqb (s_type f) t) eqn:E; [auto|].
  destruct (H f (or_introl eq_refl)) as [X|(X1 & X2 & X3 & X4)]; [apply ftype_eqb_spec in X; congruence|].
  destruct (fkind_eqb (f_kind t) KExport) eqn:Y1; [apply fkind_eqb_spec in Y1; contradiction|].
  destruct (fkind_eqb (f_kind (s_type f)) KExport) eqn:Y2; [apply fkind_eqb_spec in Y2; contradiction|].
  destruct (tys_eqb _ _) eqn:Y3; [apply tys_eqb_spec in Y3; contradiction|]. cbn.
  destruct IH as [->|(-> & _)]; [intros g Hg; apply H; now right|auto|]. right. split; [reflexivity|contradiction].
Qed.

Lemma legal_read h : legal h -> err (read h) = false.
Proof.
  induction 1 as [|h d L IH N C I V|h d b L IH N C T B]; [reflexivity|..]; rewrite read_app; destruct (read_ok h IH) as [Vo Fo].
  - cbn [step]. unfold add_var.
    destruct (lookup_funs (d_name d) (funs (read h))) as [|f fs] eqn:E.
    2:{ exfalso. assert (X : In f (lookup_funs (d_name d) (funs (read h)))) by (rewrite E; now left).
        apply in_lookup_funs in X as [X1 X2]. destruct (fun_known _ _ f Fo X1) as (d0 & D0 & _). rewrite X2, N in D0. destruct D0. }
    cbn [negb]. destruct (sclass_eqb (d_class d) SExternC) eqn:E1; [apply sclass_eqb_spec in E1; contradiction|]. cbv zeta.
    replace (_ && _) with false.
    2:{ destruct (sclass_eqb (d_class d) SExtern) eqn:X; [|reflexivity]. apply sclass_eqb_spec in X. now rewrite (I X). }
    cbn [error_if]. destruct (lookup_var _ _) as [g|] eqn:E2; [|exact IH].
    apply lookup_var_some in E2 as [G1 G2]. destruct (vs_each _ _ Vo g G1) as [(d0 & ds & D1 & D2 & _) _ _ Ty].
    rewrite G2 in *. assert (D0 : In d0 (var_decls (d_name d) h)) by (rewrite D1; now left).
    destruct (V d0 D0) as [V1 V2], (Ty d0 D0) as (T1 & _).
    rewrite D2, V1. assert (X : ty_eqb (g_type g) (d_type d) = true) by (apply ty_eqb_spec; congruence). rewrite X. cbn.
    rewrite andb_false_r. exact IH.
  - assert (X : err (add_fun (read h) d) = false).
    { unfold add_fun. destruct (lookup_var _ _) as [g|] eqn:E.
      { apply lookup_var_some in E as [G1 G2]. destruct (vs_each _ _ Vo g G1) as [(d0 & ds & D1 & _) _ _ _].
        rewrite G2, N in D1. discriminate. }
      cbv zeta. destruct (overloads_total (fd_type d) (lookup_funs (fd_name d) (funs (read h)))) as [->|(-> & K)].
      - intros f Hf. apply in_lookup_funs in Hf as [F1 F2]. destruct (fun_known _ _ f Fo F1) as (d0 & D0 & S0). rewrite F2 in D0.
        destruct (C d0 D0) as [X|(X1 & X2 & X3 & X4)]; [left; eapply same_trans; eauto|].
        right. destruct S0 as (_ & -> & -> & _). auto.
      - exact IH.
      - cbn [error_if]. replace (fkind_eqb (f_kind (fd_type d)) KExternC && _) with false.
        2:{ destruct (fkind_eqb (f_kind (fd_type d)) KExternC) eqn:Y; [|reflexivity]. apply fkind_eqb_spec in Y. now rewrite (K Y). }
        cbn [err]. rewrite err_if, IH, orb_false_r. destruct (fkind_eqb (f_kind (fd_type d)) KTask) eqn:Y; [|reflexivity].
        apply fkind_eqb_spec in Y. rewrite (T Y). reflexivity. }
    destruct b; cbn [step]; rewrite ?add_body_err; exact X.
Qed.

Lemma mine_app n t a b : mine n t (a ++ b) = mine n t a ++ mine n t b.
Proof. unfold mine. apply flat_map_app. Qed.
Lemma bodies_of_in h n t c : In (n, t, c) (bodies_of h) -> exists e, In (IFun e (Some c)) h /\ fd_name e = n /\ fd_type e = t.
Proof.
  unfold bodies_of. intros H. apply in_flat_map in H as (i & I1 & I2). destruct i as [|e [x|]]; [destruct I2| |destruct I2].
  destruct I2 as [I2|[]]. injection I2 as <- <- <-. eauto.
Qed.
Lemma legal_bodies n t h : legal h -> (length (mine n t (bodies_of h)) <= 1)%nat.
Proof.
  induction 1 as [|h d L IH N C I V|h d b L IH N C T B]; [cbn; lia|..]; rewrite bodies_of_app, mine_app, app_length.
  - cbn. lia.
  - destruct b as [c|]; [|cbn; lia]. cbn [mine flat_map]. destruct (_ && _) eqn:E; [|cbn in *; lia].
    apply andb_prop in E as [E1 E2]. apply Z.eqb_eq in E1. apply ftype_eqb_spec in E2.
    destruct (mine n t (bodies_of h)) as [|x l] eqn:M; [cbn; lia|]. exfalso.
    assert (X : In x (mine n t (bodies_of h))) by (rewrite M; now left). unfold mine in X.
    apply in_flat_map in X as ([[n' t'] c'] & X1 & X2). apply bodies_of_in in X1 as (e & Y1 & Y2 & Y3).
    destruct (_ && _) eqn:E; [|destruct X2]. apply andb_prop in E as [E3 E4]. apply Z.eqb_eq in E3. apply ftype_eqb_spec in E4.
    destruct X2 as [->|[]]. apply (B ltac:(discriminate) e x Y1); [congruence|].
    rewrite Y3. eapply same_trans; [apply same_sym; exact E4|exact E2].
Qed.

Lemma legal_compile int h : legal h -> exists s, compile int h = Some s.
Proof.
  intros L. pose proof (legal_read h L) as E. destruct (read_ok h E) as [_ F]. unfold compile. cbv zeta. rewrite E.
  assert (X : err (generate int (read h)) = false).
  { change (generate int (read h)) with (fold_left (gstep int) (bodies (read h)) (read h)). apply gfold_conv; [apply (fo_pairs _ _ F)|exact E|].
    intros f Hf. rewrite (fo_bodies _ _ F). pose proof (legal_bodies (s_name f) (s_type f) h L) as B.
    destruct (mine _ _ _) as [|b [|]]; [exact Logic.I| |cbn in B; lia]. split; [apply (fo_new _ _ F f Hf)|exact Logic.I]. }
  rewrite X. eauto.
Qed.

Lemma is_const_object d : is_const (d_type d) = true -> const_object d.
Proof. unfold is_const, const_object, d_type. cbn. destruct (d_ptrs d) as [|c l]; cbn; [|easy]. rewrite orb_true_iff. tauto. Qed.
