(** Lemmas for C75: executions keep the invariant. *)
From Coq Require Import ZArith List Bool Arith Lia.
Import ListNotations.
From Verif Require Import ConstModel ConstSpec ConstProofs ConstProofs2.

Section P.
Variable P : prog.
Notation D := (defs P).
Hypothesis Hprog : check_prog P = Some false.
Hypothesis Hplain : plain_prog P.

Lemma func_checked f fn : nth_error (funcs P) f = Some fn -> check_func P fn = Some false.
Proof.
  intros H. apply nth_error_In in H. pose proof Hprog as K. unfold check_prog in K. apply both_false in K. destruct K as [_ K].
  induction (funcs P) as [| g l IH]; [contradiction |]. cbn in K. apply both_false in K. destruct K as [K1 K2].
  destruct H as [-> | H]; auto.
Qed.
Lemma func_body f fn : nth_error (funcs P) f = Some fn -> check P (ret fn) (gvars P ++ params fn) (body fn) = Some false.
Proof.
  intros H. apply func_checked in H. unfold check_func in H.
  destruct (is_arr (ret fn) || existsb (fun p => is_arr (snd p) && negb (fst p) || is_void (snd p)) (params fn)); [discriminate | auto].
Qed.
Lemma func_ret f fn : nth_error (funcs P) f = Some fn -> is_arr (ret fn) = false.
Proof.
  intros H. apply func_checked in H. unfold check_func in H. destruct (is_arr (ret fn)); [discriminate | auto].
Qed.

Definition inv (G : vars) (env : list addr) (st : state) : Prop :=
  env_ok D st G env /\ st_ok D st /\ firstn (length (globals P)) G = gvars P.
Lemma gvars_length : length (gvars P) = length (globals P).
Proof. apply map_length. Qed.
Lemma inv_ge G env st : inv G env st -> length (globals P) <= length G.
Proof.
  intros [_ [_ H]]. apply (f_equal (@length _)) in H. rewrite firstn_length, gvars_length in H. lia.
Qed.
Lemma env_firstn st G env n : env_ok D st G env -> env_ok D st (firstn n G) (firstn n env).
Proof. intros H. revert n. induction H; intros [| n]; cbn; constructor; auto. apply IHForall2. Qed.
Lemma env_app st G env G' env' : env_ok D st G env -> env_ok D st G' env' -> env_ok D st (G ++ G') (env ++ env').
Proof. apply Forall2_app. Qed.
Lemma inv_ext G env st st' : inv G env st -> st_ok D st' -> ext st st' -> inv G env st'.
Proof. intros [H1 [H2 H3]] S X. split; [eapply env_mono; eauto | split; auto]. Qed.
Lemma inv_snoc G env st st' k t a u : inv G env st -> st_ok D st' -> ext st st' -> addr_ty D st' a = Some u -> views u t ->
  inv (G ++ [(k, t)]) (env ++ [a]) st'.
Proof.
  intros Hi S X Ha V. pose proof (inv_ge _ _ _ Hi) as Hl. destruct Hi as [H1 [H2 H3]]. split; [| split; auto].
  - apply env_app; [eapply env_mono; eauto |]. constructor; [| constructor]. exists u. auto.
  - rewrite firstn_app. replace (length (globals P) - length G) with 0 by lia. cbn. rewrite app_nil_r. auto.
Qed.
Lemma inv_call G env st st1 fn l : inv G env st -> st_ok D st1 -> ext st st1 -> env_ok D st1 (params fn) l ->
  inv (gvars P ++ params fn) (firstn (length (globals P)) env ++ l) st1.
Proof.
  intros [H1 [H2 H3]] S X E. split; [| split; auto].
  - apply env_app; auto. rewrite <- H3. apply env_firstn. eapply env_mono; eauto.
  - rewrite firstn_app, gvars_length, Nat.sub_diag. cbn. rewrite app_nil_r, firstn_all2; auto. rewrite gvars_length. auto.
Qed.

Definition out_ok (rt : ty) (st : state) (o : outcome) : Prop := match o with Returned v => val_ok D st rt v | _ => True end.

Theorem exec_ok rt G env st c st' o : exec P rt G env st c st' o -> check P rt G c = Some false -> plain c -> inv G env st ->
  st_ok D st' /\ ext st st' /\ out_ok rt st' o.
Proof.
  destruct Hplain as [Hpf Hps].
  induction 1; intros Hc Hp Hi; cbn [check plain] in Hc, Hp; pose proof Hi as [He [Hs Hg]].
  - split; auto. split; [apply ext_refl | cbn; auto].
  - split; auto. split; [apply ext_refl | cbn; auto].
  - apply both_false in Hc. destruct Hc as [C1 C2]. destruct Hp as [P1 P2].
    destruct (IHexec1 C1 P1 Hi) as [S1 [X1 _]]. destruct (IHexec2 C2 P2 (inv_ext _ _ _ _ Hi S1 X1)) as [S2 [X2 O2]].
    split; auto. split; auto. eapply ext_trans; eauto.
  - apply both_false in Hc. destruct Hc as [C1 C2]. destruct Hp as [P1 P2]. auto.
  - apply both_false in Hc. destruct Hc as [C1 C2]. destruct (make_ok _ _ _ _ _ _ _ He Hs C1 H) as [S1 [X1 F]].
    destruct (IHexec C2 Hp) as [S2 [X2 O2]]; [eapply inv_snoc; eauto; constructor |].
    split; auto. split; auto. eapply ext_trans; eauto.
  - destruct (typeof D G e) as [te |] eqn:Et; [| discriminate].
    destruct (i_lv te && ok (conv_ref (is_ref G e) (i_ty te) t)) eqn:E; [| discriminate].
    apply both_false in Hc. destruct Hc as [C1 C2]. destruct Hp as [P1 P2]. inversion C1 as [Hw]. apply orb_false_iff in Hw. destruct Hw as [W1 W2].
    apply andb_true_iff in E. destruct E as [_ E]. pose proof (warn_yes _ E W2) as Hy.
    pose proof (eval_ok _ _ _ _ He Hs _ _ _ Et W1 H) as [u [Hu V]].
    apply IHexec; auto. eapply inv_snoc; eauto using ext_refl. eapply conv_ref_ok; eauto.
  - rewrite H in Hc. destruct (negb (i_lv tl) || is_const (i_ty tl)) eqn:E; [discriminate |]. apply orb_false_iff in E. destruct E as [_ E].
    assert (i_warn tl = false /\ check_leaf D G (i_ty tl) r = Some false /\
            (forall cc s, i_ty tl = TStruct cc s -> has_const D (S (length D)) s = false)) as [W [L K]].
    { destruct (i_ty tl) as [ct | ct bt | nt bt | ct si | ct] eqn:Et; try (apply both_false in Hc; destruct Hc as [C1 C2]; split; [congruence | split; [assumption | discriminate]]).
      destruct (has_const D (S (length D)) si) eqn:Eh; [discriminate |]. apply both_false in Hc; destruct Hc as [C1 C2].
      split; [congruence | split; [assumption |]]. intros cc s0 Q. inversion Q; subst. auto. }
    pose proof (eval_ok _ _ _ _ He Hs _ _ _ H W H0) as [u [Hu V]].
    assert (is_arr (i_ty tl) = false /\ is_void (i_ty tl) = false) as [Ha Hv].
    { unfold check_leaf in L. rewrite H1 in L. destruct (is_arr (i_ty tl)); [discriminate |]. destruct (is_void (i_ty tl)); [discriminate |]. auto. }
    pose proof (views_write _ _ V Ha Hv E) as <-.
    split; [| split; [apply store_ext | cbn; auto]]. eapply store_ok; eauto.
    + destruct (i_ty tl) eqn:Et; cbn in Ha, Hv, E; try discriminate; subst.
      * apply scalar_writable; auto.
      * apply scalar_writable; auto.
      * eapply has_const_writable; eauto.
    + eapply leaf_ok; eauto.
  - rewrite H in Hc. destruct (typeof D G i) as [ti |] eqn:Ei; [| discriminate].
    destruct (negb (i_lv tl) || is_const (i_ty tl)) eqn:E; [discriminate |]. apply orb_false_iff in E. destruct E as [_ E].
    rewrite H0 in Hc, E. destruct (i_ty ti); try discriminate. inversion Hc as [Hw]. apply orb_false_iff in Hw. destruct Hw as [W _].
    pose proof (eval_ok _ _ _ _ He Hs _ _ _ H W H1) as [u [Hu V]]. rewrite H0 in V.
    pose proof (views_write _ _ V eq_refl eq_refl E) as <-.
    split; [| split; [apply store_ext | cbn; auto]]. eapply store_ok; eauto.
    + apply scalar_writable; auto.
    + apply val_scal; auto.
  - rewrite H in Hc. destruct (typeof D G i) as [ti |] eqn:Ei; [| discriminate].
    destruct (negb (i_lv tl) || is_const (i_ty tl)) eqn:E; [discriminate |]. apply orb_false_iff in E. destruct E as [_ E].
    rewrite H0 in Hc, E. destruct (i_ty ti); try discriminate. destruct (is_void b); [discriminate |].
    inversion Hc as [Hw]. apply orb_false_iff in Hw. destruct Hw as [W _].
    pose proof (eval_ok _ _ _ _ He Hs _ _ _ H W H1) as [u [Hu V]]. rewrite H0 in V.
    pose proof (views_write _ _ V eq_refl eq_refl E) as <-.
    assert (val_ok D st (TPtr c b) (load st a)) as K by (eapply load_ok; eauto).
    apply val_scal in K; auto. rewrite H4 in K. cbn in K. destruct (move_ok _ _ _ _ _ _ H5 K) as [w [Hw' V']].
    split; [| split; [apply store_ext | cbn; auto]]. eapply store_ok; eauto.
    + apply scalar_writable; auto.
    + apply val_scal; auto. cbn. eauto.
  - apply both_false in Hc. destruct Hc as [C1 C2]. destruct Hp as [P1 P2]. auto.
  - apply both_false in Hc. destruct Hc as [C1 C2]. destruct Hp as [P1 P2]. auto.
  - split; auto. split; [apply ext_refl | cbn; auto].
  - destruct (IHexec1 Hc Hp Hi) as [S1 [X1 _]]. destruct (IHexec2 Hc Hp (inv_ext _ _ _ _ Hi S1 X1)) as [S2 [X2 O2]].
    split; auto. split; auto. eapply ext_trans; eauto.
  - auto.
  - rewrite H in Hc. destruct (Hpf fn (nth_error_In _ _ H)) as [Pb Pr].
    destruct (bind_all_ok _ _ _ _ _ _ _ _ He Hs Hc Pr H0) as [S1 [X1 E1]].
    destruct (IHexec (func_body _ _ H) Pb (inv_call _ _ _ _ _ _ Hi S1 X1 E1)) as [S2 [X2 O2]].
    split; auto. split; [eapply ext_trans; eauto |]. destruct o; cbn; auto.
  - rewrite H in Hc. destruct (Hpf fn (nth_error_In _ _ H)) as [Pb Pr]. destruct (is_void (ret fn)); [discriminate |].
    destruct (negb (is_arr t) && ok (conv false false (ret fn) t)) eqn:E; [| discriminate].
    apply both_false in Hc. destruct Hc as [C1 C2]. apply both_false in C1. destruct C1 as [C1 C3].
    destruct (bind_all_ok _ _ _ _ _ _ _ _ He Hs C1 Pr H0) as [S1 [X1 E1]].
    destruct (IHexec (func_body _ _ H) Pb (inv_call _ _ _ _ _ _ Hi S1 X1 E1)) as [S2 [X2 O2]].
    split; auto. split; [eapply ext_trans; eauto |]. cbn; auto.
  - rewrite H in Hc. destruct (Hpf fn (nth_error_In _ _ H)) as [Pb Pr]. destruct (is_void (ret fn)); [discriminate |].
    destruct (negb (is_arr t) && ok (conv false false (ret fn) t)) eqn:E; [| discriminate].
    apply both_false in Hc. destruct Hc as [C1 C2]. apply both_false in C1. destruct C1 as [C1 C3].
    apply andb_true_iff in E. destruct E as [Ea Eo]. inversion C3 as [Ew]. pose proof (warn_yes _ Eo Ew) as Hy.
    destruct (bind_all_ok _ _ _ _ _ _ _ _ He Hs C1 Pr H0) as [S1 [X1 E1]].
    destruct (IHexec1 (func_body _ _ H) Pb (inv_call _ _ _ _ _ _ Hi S1 X1 E1)) as [S2 [X2 O2]]. cbn in O2.
    assert (val_ok D st2 t w) as K.
    { eapply (coerce_ok D st2 false false (ret fn) t (RV v)); eauto; [discriminate |]. destruct (is_arr t); [discriminate | auto]. }
    assert (ext st (alloc st2 t w)) as X3 by (eapply ext_trans; [eapply ext_trans; eauto | apply alloc_ext]).
    destruct (IHexec2 C2 Hp) as [S4 [X4 O4]].
    { eapply inv_snoc; eauto using alloc_ok, fresh_ty. constructor. }
    split; auto. split; [eapply ext_trans; eauto | auto].
  - split; auto. split; [apply ext_refl |]. cbn. eapply leaf_ok; eauto.
  - contradiction.
Qed.

Lemma start_ok : forall gs G env st st1 env1, check_globals D G gs = Some false -> env_ok D st G env -> st_ok D st ->
  start_from D G env st gs = Some (st1, env1) ->
  st_ok D st1 /\ env_ok D st1 (G ++ map (fun g => (false, fst g)) gs) env1.
Proof.
  induction gs as [| [t i] gs IH]; intros G env st st1 env1 Hc He Hs H; cbn in Hc, H.
  - inversion H; subst. cbn. rewrite app_nil_r. auto.
  - apply both_false in Hc. destruct Hc as [C1 C2]. destruct (make D G env st t i) as [st2 |] eqn:E; [| discriminate].
    destruct (make_ok _ _ _ _ _ _ _ He Hs C1 E) as [S2 [X2 F]]. cbn [map fst].
    replace (G ++ (false, t) :: map (fun g => (false, fst g)) gs) with ((G ++ [(false, t)]) ++ map (fun g => (false, fst g)) gs) by (rewrite <- app_assoc; auto).
    eapply IH; eauto. apply env_app; [eapply env_mono; eauto |]. constructor; [| constructor]. exists t. split; auto. constructor.
Qed.

Theorem reaches_ok st : reaches P st -> const_kept D st.
Proof.
  intros [st0 [env [o [Hst Hx]]]]. pose proof Hprog as K. unfold check_prog in K. apply both_false in K. destruct K as [K1 _].
  assert (st_ok D empty) as Se by (intros b t v E; destruct b; discriminate).
  destruct (start_ok _ _ _ _ _ _ K1 (Forall2_nil _) Se Hst) as [S0 E0].
  assert (inv (gvars P) env st0) as Hi.
  { split; [exact E0 | split; auto]. rewrite firstn_all2; auto. rewrite gvars_length. auto. }
  inversion Hx; subst.
  - intros b t v p Hb Hc. destruct (const_at_type _ _ _ Hc) as [s [T1 [T2 T3]]]. destruct (S0 _ _ _ Hb) as [_ Q]. apply (Q p s); auto.
  - assert (check P (TVoid false) (gvars P) (Call 0 []) = Some false) as Hc.
    { cbn [check]. match goal with H : nth_error (funcs P) 0 = Some _ |- _ => rewrite H end.
      match goal with H : bind_all _ _ _ _ (params ?f) [] = Some _ |- _ => destruct (params f); [auto | discriminate H] end. }
    destruct (exec_ok _ _ _ _ _ _ _ Hx Hc I Hi) as [S1 _].
    intros b t v p Hb Hca. destruct (const_at_type _ _ _ Hca) as [s [T1 [T2 T3]]]. destruct (S1 _ _ _ Hb) as [_ Q]. apply (Q p s); auto.
Qed.
End P.
