(** Lemmas for C75: expressions, stores and executions. *)
From Coq Require Import ZArith List Bool Arith Lia.
Import ListNotations.
From Verif Require Import ConstModel ConstSpec ConstProofs.

Lemma decay_flat t : is_arr (decay t) = false.
Proof. destruct t; auto. Qed.
Lemma more_flat a b t : more_general a b = Some t -> is_arr a = false -> is_arr b = false -> is_arr t = false.
Proof.
  unfold more_general. intros H Ha Hb. destruct (ty_eqb false a b); [inversion H; subst; auto |].
  destruct (ty_eqb true a b); [inversion H; subst; destruct a; auto |].
  destruct a, b; try discriminate. destruct (is_void a); [inversion H; subst; auto |]. destruct (is_void b); inversion H; subst; auto.
Qed.
Lemma warn_yes v : ok v = true -> warns v = false -> v = Yes.
Proof. destruct v; cbn; intros; auto; discriminate. Qed.
Lemma null_res D G env st e r : is_null e = true -> eval D G env st e = Some r -> r = RV (scal VNull).
Proof. destruct e; cbn; try discriminate. intros _ H. inversion H. auto. Qed.

Section D.
Variable D : structs.
Notation tyval := (tyval D). Notation val_ok := (val_ok D). Notation st_ok := (st_ok D). Notation res_ok := (res_ok D).

Definition env_ok (st : state) (G : vars) (env : list addr) : Prop :=
  Forall2 (fun x a => exists u, addr_ty D st a = Some u /\ views u (snd x)) G env.

Lemma env_nth st G env x r t a : env_ok st G env -> nth_error G x = Some (r, t) -> nth_error env x = Some a ->
  exists u, addr_ty D st a = Some u /\ views u t.
Proof.
  intros H. revert x. induction H as [| g b G env Hg _ IH]; intros x E F; destruct x; cbn in *; try discriminate.
  - inversion E; inversion F; subst. auto.
  - eauto.
Qed.
Lemma env_mono st st' G env : ext st st' -> env_ok st G env -> env_ok st' G env.
Proof. intros E H. induction H as [| g a G env [u [Hu V]] _ IH]; constructor; auto. exists u. split; auto. eapply addr_mono; eauto. Qed.

Lemma decay_ok st from r v : st_ok st -> res_ok st from r -> coerce D st from (decay from) r = Some v -> val_ok st (decay from) v.
Proof.
  intros Hst Hr Hv. eapply (coerce_ok D st false false from (decay from)); eauto using decay_flat; try discriminate.
  destruct from; cbn [decay]; try (unfold conv; rewrite ty_eqb_refl; reflexivity).
  assert ((if is_const from then as_const from else from) = from) as Ei.
  { destruct (is_const from) eqn:E; auto. clear -E. induction from; cbn in *; subst; auto. f_equal; auto. }
  unfold conv. change (ty_eqb false (TPtr false from) (TArr n from)) with (Bool.eqb false (is_const from) && false).
  rewrite andb_false_r. cbn [orb is_void]. destruct (is_void from); auto. rewrite Ei, ty_eqb_refl. auto.
Qed.

Lemma eval_ok G env st : env_ok st G env -> st_ok st -> forall e te r,
  typeof D G e = Some te -> i_warn te = false -> eval D G env st e = Some r -> res_ok st (i_ty te) r.
Proof.
  intros Henv Hst. induction e; intros te r Ht Hw He; cbn [typeof eval] in Ht, He.
  - inversion Ht; inversion He; subst. cbn. apply val_scal; cbn; auto.
  - inversion Ht; inversion He; subst. cbn. apply val_scal; cbn; auto.
  - destruct (nth_error G x) as [[k t] |] eqn:E; [| discriminate]. inversion Ht; subst.
    destruct (nth_error env x) as [a |] eqn:F; [| discriminate]. inversion He; subst. cbn. eapply env_nth; eauto.
  - destruct (typeof D G e) as [[t l w] |] eqn:E; [| discriminate]. destruct t; try discriminate.
    destruct (is_void t) eqn:Ev; [discriminate |]. inversion Ht; subst. cbn in *. subst.
    destruct (eval D G env st e) as [r0 |] eqn:F; [| discriminate].
    pose proof (IHe _ _ eq_refl eq_refl eq_refl) as H. cbn in H.
    assert (val_ok st (TPtr c t) (value_of st r0)) as K by (apply value_ok; auto).
    apply val_scal in K; auto. destruct (value_of st r0 []); try discriminate. inversion He; subst. exact K.
  - destruct (typeof D G e) as [[t l w] |] eqn:E; [| discriminate]. destruct l; [| discriminate]. inversion Ht; subst. cbn in *. subst.
    destruct (eval D G env st e) as [r0 |] eqn:F; [| discriminate]. destruct r0; [| discriminate]. inversion He; subst.
    pose proof (IHe _ _ eq_refl eq_refl eq_refl) as H. cbn in *. apply val_scal; auto.
  - destruct (typeof D G e1) as [[t l w] |] eqn:E; [| discriminate].
    destruct (typeof D G e2) as [[t2 l2 w2] |] eqn:E2; [| destruct t; try discriminate; destruct l; discriminate].
    destruct (eval D G env st e1) as [r1 |] eqn:F1; [| discriminate].
    destruct (eval D G env st e2) as [r2 |] eqn:F2; [| discriminate].
    destruct (value_of st r2 []) as [z | | |]; try discriminate. cbn in He.
    destruct t; try discriminate.
    + destruct t2; try discriminate. destruct (is_void t) eqn:Ev; [discriminate |]. inversion Ht; subst. cbn in *.
      apply orb_false_iff in Hw. destruct Hw as [Hw1 Hw2]. subst.
      pose proof (IHe1 _ _ eq_refl eq_refl eq_refl) as H. cbn in H.
      assert (val_ok st (TPtr c t) (value_of st r1)) as K by (apply value_ok; auto).
      apply val_scal in K; auto. destruct (value_of st r1 []); try discriminate.
      destruct (move D st a z) eqn:M; [| discriminate]. inversion He; subst. cbn. eapply move_ok; eauto.
    + destruct l; try discriminate. destruct t2; try discriminate. inversion Ht; subst. cbn in *.
      apply orb_false_iff in Hw. destruct Hw as [Hw1 Hw2]. subst.
      pose proof (IHe1 _ _ eq_refl eq_refl eq_refl) as H. cbn in H.
      destruct r1 as [a |]; [| discriminate]. destruct (elem D st a z) eqn:M; [| discriminate]. inversion He; subst. cbn in *.
      eapply elem_ok; eauto.
  - destruct (typeof D G e) as [[t l w] |] eqn:E; [| discriminate]. destruct t; try discriminate.
    destruct (sub D (TStruct c s) f) as [m |] eqn:Es; [| discriminate]. inversion Ht; subst. cbn [i_warn i_ty] in *. subst.
    destruct (eval D G env st e) as [r0 |] eqn:F; [| discriminate].
    pose proof (IHe _ _ eq_refl eq_refl eq_refl) as H. cbn [i_ty] in H.
    destruct r0 as [a | v]; inversion He; subst; cbn [ConstProofs.res_ok] in *.
    + eapply field_ok; eauto.
    + intros q x Hq. apply (H (f :: q)). cbn [type_at]. rewrite Es. auto.
  - destruct (typeof D G e) as [[t l w] |] eqn:E; [| discriminate]. destruct t; try discriminate. destruct t; try discriminate.
    destruct (sub D (TStruct c0 s) f) as [m |] eqn:Es; [| discriminate]. inversion Ht; subst. cbn [i_warn i_ty] in *. subst.
    destruct (eval D G env st e) as [r0 |] eqn:F; [| discriminate].
    pose proof (IHe _ _ eq_refl eq_refl eq_refl) as H. cbn [i_ty] in H.
    assert (val_ok st (TPtr c (TStruct c0 s)) (value_of st r0)) as K by (apply value_ok; auto).
    apply val_scal in K; auto. destruct (value_of st r0 []); try discriminate. inversion He; subst. cbn [ConstProofs.res_ok].
    eapply field_ok; eauto.
  - destruct (typeof D G e1) as [[t l w] |] eqn:E; [| discriminate].
    destruct (typeof D G e2) as [[t2 l2 w2] |] eqn:E2; [| destruct t; try discriminate; destruct l; discriminate].
    destruct (eval D G env st e1) as [r1 |] eqn:F1; [| discriminate].
    destruct (eval D G env st e2) as [r2 |] eqn:F2; [| discriminate]. cbn [i_ty] in He.
    destruct (coerce D st t (decay t) r1) as [v |] eqn:Ec; [| discriminate].
    destruct (value_of st r2 []) as [z | | |]; try discriminate.
    destruct (v []) as [| a | |] eqn:Ev; try discriminate. destruct (move D st a z) as [a' |] eqn:M; [| discriminate]. inversion He; subst.
    assert (exists c b, decay t = TPtr c b /\ i_ty te = TPtr c b /\ w = false) as [c [b [Ed [Ety ->]]]].
    { destruct t; try discriminate.
      - destruct t2; try discriminate. destruct (is_void t); [discriminate |]. inversion Ht; subst. cbn in *.
        apply orb_false_iff in Hw. destruct Hw. do 2 eexists. eauto.
      - destruct l; try discriminate. destruct t2; try discriminate. inversion Ht; subst. cbn in *.
        apply orb_false_iff in Hw. destruct Hw. do 2 eexists. eauto. }
    pose proof (IHe1 _ _ eq_refl eq_refl eq_refl) as H. cbn [i_ty] in H.
    pose proof (decay_ok _ _ _ _ Hst H Ec) as K. rewrite Ed in K. rewrite Ety. cbn [ConstProofs.res_ok].
    apply val_scal in K; auto. apply val_scal; auto. rewrite Ev in K. cbn in *. eapply move_ok; eauto.
  - destruct (typeof D G e1) as [[ta la wa] |] eqn:E; [| discriminate].
    destruct (typeof D G e2) as [[tb lb wb] |] eqn:E2; [| discriminate]. cbn [i_ty] in He.
    destruct (is_arr ta && negb la || is_arr tb && negb lb); [discriminate |].
    destruct (more_general (decay ta) (decay tb)) as [t |] eqn:Em; [| discriminate].
    destruct (ok (conv_exp e1 (decay ta) t) && ok (conv_exp e2 (decay tb) t)) eqn:Eo; [| discriminate].
    inversion Ht; subst. cbn [i_warn i_ty] in *.
    apply andb_true_iff in Eo. destruct Eo as [O1 O2].
    apply orb_false_iff in Hw. destruct Hw as [Hw W4]. apply orb_false_iff in Hw. destruct Hw as [Hw W3].
    apply orb_false_iff in Hw. destruct Hw as [W1 W2]. subst.
    assert (is_arr t = false) as Hflat by (eapply more_flat; eauto using decay_flat).
    destruct test.
    + destruct (eval D G env st e1) as [r1 |] eqn:F1; [| discriminate].
      cbn [i_ty] in He. destruct (coerce D st ta (decay ta) r1) as [v |] eqn:Ec; [| discriminate].
      destruct (coerce D st (decay ta) t (RV v)) as [v2 |] eqn:Ec2; [| discriminate]. inversion He; subst. cbn [ConstProofs.res_ok].
      pose proof (IHe1 _ _ eq_refl eq_refl eq_refl) as H. cbn [i_ty] in H.
      eapply (coerce_ok D st _ _ (decay ta) t (RV v)); eauto.
      * cbn. eapply decay_ok; eauto.
      * apply warn_yes; eauto.
      * intros Hn. pose proof (null_res _ _ _ _ _ _ Hn F1) as ->. destruct e1; try discriminate. inversion E; subst. cbn in Ec. inversion Ec; auto.
    + destruct (eval D G env st e2) as [r1 |] eqn:F1; [| discriminate].
      cbn [i_ty] in He. destruct (coerce D st tb (decay tb) r1) as [v |] eqn:Ec; [| discriminate].
      destruct (coerce D st (decay tb) t (RV v)) as [v2 |] eqn:Ec2; [| discriminate]. inversion He; subst. cbn [ConstProofs.res_ok].
      pose proof (IHe2 _ _ eq_refl eq_refl eq_refl) as H. cbn [i_ty] in H.
      eapply (coerce_ok D st _ _ (decay tb) t (RV v)); eauto.
      * cbn. eapply decay_ok; eauto.
      * apply warn_yes; eauto.
      * intros Hn. pose proof (null_res _ _ _ _ _ _ Hn F1) as ->. destruct e2; try discriminate. inversion E2; subst. cbn in Ec. inversion Ec; auto.
Qed.

Lemma leaf_ok G env st s e te r v : env_ok st G env -> st_ok st -> check_leaf D G s e = Some false -> typeof D G e = Some te ->
  eval D G env st e = Some r -> coerce D st (i_ty te) s r = Some v -> val_ok st s v.
Proof.
  intros Henv Hst Hc Ht He Hv. unfold check_leaf in Hc. rewrite Ht in Hc.
  destruct (negb (is_arr s) && negb (is_void s) && (negb (is_arr (i_ty te)) || i_lv te) && ok (conv_exp e (i_ty te) s)) eqn:E; [| discriminate].
  repeat (apply andb_true_iff in E; destruct E as [E ?]). inversion Hc as [Hw]. apply orb_false_iff in Hw. destruct Hw as [W1 W2].
  eapply (coerce_ok D st (is_null e) (is_zero e) (i_ty te) s r); eauto.
  - eapply eval_ok; eauto.
  - apply warn_yes; assumption.
  - intros Hn. eapply null_res; eauto.
  - destruct (is_arr s); auto; discriminate.
Qed.

(** ** Stores and allocation. *)
Lemma strip_spec p : forall q r, strip p q = Some r -> q = p ++ r.
Proof.
  induction p as [| i p IH]; intros q r H; cbn in H; [cbn; congruence |]. destruct q as [| j q]; [discriminate |].
  destruct (i =? j) eqn:E; [| discriminate]. apply Nat.eqb_eq in E. subst. cbn. f_equal. auto.
Qed.
Lemma strip_app p q : strip p (p ++ q) = Some q.
Proof. induction p; cbn; auto. rewrite Nat.eqb_refl. auto. Qed.

Lemma alloc_ext st t v : ext st (alloc st t v).
Proof. exists [(t, v)]. auto. Qed.
Lemma fresh_ty st t v : addr_ty D (alloc st t v) (fresh st) = Some t.
Proof. unfold addr_ty, fresh; cbn. rewrite nth_error_app2, Nat.sub_diag; auto. Qed.
Lemma alloc_ok st t v : st_ok st -> val_ok st t v -> st_ok (alloc st t v).
Proof.
  intros Hst Hv b t0 v0 E. cbn in E. pose proof (alloc_ext st t v) as X. unfold block_ok. cbn [mem alloc].
  destruct (b =? length (blocks st)) eqn:Eb.
  - apply Nat.eqb_eq in Eb. subst. rewrite nth_error_app2, Nat.sub_diag in E; auto. cbn in E. inversion E; subst.
    split; auto. eapply val_mono; eauto.
  - apply Nat.eqb_neq in Eb.
    assert (b < length (blocks st)) as L.
    { assert (b < length (blocks st ++ [(t, v)])) by (apply nth_error_Some; congruence). rewrite app_length in H. cbn in H. lia. }
    rewrite nth_error_app1 in E; auto. destruct (Hst _ _ _ E) as [H1 H2]. split; auto.
    eapply val_mono; eauto.
Qed.
Lemma store_ext st a v : ext st (store st a v).
Proof. exists []. cbn. rewrite app_nil_r. auto. Qed.
Definition writable (u : ty) : Prop := forall q s, type_at D u q = Some s -> scalar s = true -> is_const s = false.
Lemma store_ok st a u v : st_ok st -> addr_ty D st a = Some u -> writable u -> val_ok st u v -> st_ok (store st a v).
Proof.
  intros Hst Ha Hw Hv b t v0 E. cbn in E. destruct (Hst _ _ _ E) as [H1 H2]. pose proof (store_ext st a v) as X.
  unfold block_ok. cbn [mem store]. unfold addr_ty in Ha.
  destruct (b =? fst a) eqn:Eb.
  - apply Nat.eqb_eq in Eb. subst. rewrite E in Ha. split.
    + intros q s F. apply (tyval_mono D st _ s _ X). destruct (strip (snd a) q) eqn:Es; [| apply H1; auto].
      apply strip_spec in Es. subst. apply Hv. rewrite type_at_app, Ha in F. auto.
    + intros p s F S1 S2. destruct (strip (snd a) p) eqn:Es; [| apply (H2 p s); auto].
      apply strip_spec in Es. subst. rewrite type_at_app, Ha in F. rewrite (Hw _ _ F S1) in S2. discriminate.
  - split; auto.
Qed.
Lemma put_ok st t s v p x : val_ok st t v -> type_at D t p = Some s -> val_ok st s x -> val_ok st t (put v p x).
Proof.
  intros Hv Hp Hx q u F. unfold put. destruct (strip p q) eqn:Es; [| apply Hv; auto].
  apply strip_spec in Es. subst. apply Hx. rewrite type_at_app, Hp in F. auto.
Qed.
Lemma unset_ok st t : val_ok st t (scal VUnset).
Proof. intros q s _. unfold scal. destruct s; cbn; auto. Qed.

Lemma both_false a b : both a b = Some false -> a = Some false /\ b = Some false.
Proof. destruct a as [[] |], b as [[] |]; cbn; try discriminate; auto. Qed.

Lemma init_ok G env st t : env_ok st G env -> st_ok st -> forall i v w, check_init D G t i = Some false -> val_ok st t v ->
  init_value D G env st t i v = Some w -> val_ok st t w.
Proof.
  intros Henv Hst. induction i as [| [p e] i IH]; intros v w Hc Hv H; cbn in *; [inversion H; subst; auto |].
  destruct (type_at D t p) as [s |] eqn:E; [| discriminate]. apply both_false in Hc. destruct Hc as [C1 C2].
  destruct (typeof D G e) as [te |] eqn:Et; [| discriminate]. destruct (eval D G env st e) as [r |] eqn:Ee; [| discriminate].
  destruct (coerce D st (i_ty te) s r) as [x |] eqn:Ec; [| discriminate].
  eapply IH; [exact C2 | | exact H]. eapply put_ok; eauto. eapply leaf_ok; eauto.
Qed.
Lemma make_ok G env st t i st1 : env_ok st G env -> st_ok st -> check_var D G t i = Some false -> make D G env st t i = Some st1 ->
  st_ok st1 /\ ext st st1 /\ addr_ty D st1 (fresh st) = Some t.
Proof.
  intros Henv Hst Hc H. unfold make in H. destruct (init_value D G env st t i (scal VUnset)) as [v |] eqn:E; [| discriminate].
  inversion H; subst. unfold check_var in Hc.
  destruct (is_void t || is_const t && match i with [] => true | _ => false end); [discriminate |].
  split; [| split; [apply alloc_ext | apply fresh_ty]]. apply alloc_ok; auto. eapply init_ok; eauto using unset_ok.
Qed.

Lemma conv_ref_ok isref from to u : conv_ref isref from to = Yes -> plain_ref to -> views u from -> views u to.
Proof.
  unfold conv_ref. intros H Hp V.
  destruct (isref && ty_eqb false to from) eqn:E0.
  { apply andb_true_iff in E0. destruct E0 as [_ E]. apply ty_eqb_eq in E. subst. auto. }
  destruct (is_void from); [discriminate |]. destruct (negb isref && is_ptr from); [discriminate |].
  destruct (ty_eqb false to from) eqn:E1; [apply ty_eqb_eq in E1; subst; auto |].
  destruct (ty_eqb true to from && is_const to && negb (is_const from)) eqn:E2.
  { apply andb_true_iff in E2. destruct E2 as [E2 _]. apply andb_true_iff in E2. destruct E2 as [E2 E3].
    rewrite (plain_eq _ _ Hp E2 E3). apply views_const; auto. }
  destruct (ty_eqb false to (as_const from)) eqn:E3; [apply ty_eqb_eq in E3; subst; apply views_const; auto |].
  destruct from, to; try discriminate. destruct (ty_eqb false from to) eqn:E4; [| discriminate]. apply ty_eqb_eq in E4. subst.
  eapply views_arr; eauto.
Qed.
Lemma res_views st t r u : res_ok st t r -> match r with RL a => addr_ty D st a = Some u -> True | RV _ => True end.
Proof. destruct r; auto. Qed.

Lemma bind_ok G env st p e st1 a : env_ok st G env -> st_ok st -> check_arg D G p e = Some false -> (fst p = true -> plain_ref (snd p)) ->
  bind D G env st p e = Some (st1, a) -> st_ok st1 /\ ext st st1 /\ exists u, addr_ty D st1 a = Some u /\ views u (snd p).
Proof.
  intros Henv Hst Hc Hp H. unfold bind in H. unfold check_arg in Hc.
  destruct (typeof D G e) as [te |] eqn:Et; [| discriminate]. destruct (eval D G env st e) as [r |] eqn:Ee; [| discriminate].
  destruct p as [k t]. cbn [fst snd] in *. destruct k.
  - destruct ((negb (is_arr (i_ty te)) || i_lv te) && ok (conv_ref (is_ref G e) (i_ty te) t)) eqn:E; [| discriminate].
    apply andb_true_iff in E. destruct E as [_ E]. inversion Hc as [Hw]. apply orb_false_iff in Hw. destruct Hw as [W1 W2].
    pose proof (warn_yes _ E W2) as Hy. pose proof (eval_ok _ _ _ Henv Hst _ _ _ Et W1 Ee) as Hr.
    destruct r as [x | v]; inversion H; subst.
    + cbn in Hr. destruct Hr as [u [Hu V]]. split; [auto | split; [apply ext_refl |]]. exists u. split; auto. eapply conv_ref_ok; eauto.
    + cbn in Hr. split; [apply alloc_ok; auto | split; [apply alloc_ext |]]. eexists; split; [apply fresh_ty |].
      eapply conv_ref_ok; eauto. constructor.
  - destruct (coerce D st (i_ty te) t r) as [v |] eqn:Ec; [| discriminate]. inversion H; subst.
    split; [apply alloc_ok; auto; eapply leaf_ok; eauto | split; [apply alloc_ext |]]. eexists; split; [apply fresh_ty | constructor].
Qed.
Lemma bind_all_ok G env : forall ps es st st1 l, env_ok st G env -> st_ok st -> check_args D G ps es = Some false ->
  (forall t, In (true, t) ps -> plain_ref t) -> bind_all D G env st ps es = Some (st1, l) ->
  st_ok st1 /\ ext st st1 /\ env_ok st1 ps l.
Proof.
  induction ps as [| p ps IH]; intros es st st1 l Henv Hst Hc Hp H; destruct es as [| e es]; cbn in *; try discriminate.
  - inversion H; subst. split; auto. split; [apply ext_refl | constructor].
  - apply both_false in Hc. destruct Hc as [C1 C2]. destruct (bind D G env st p e) as [[st2 a] |] eqn:E; [| discriminate].
    destruct (bind_all D G env st2 ps es) as [[st3 l'] |] eqn:F; [| discriminate]. inversion H; subst.
    assert (fst p = true -> plain_ref (snd p)) as Hpp by (intros Hk; apply Hp; left; destruct p; cbn in *; subst; auto).
    destruct (bind_ok _ _ _ _ _ _ _ Henv Hst C1 Hpp E) as [S2 [X2 [u [Hu V]]]].
    destruct (IH es st2 st1 l' (env_mono _ _ _ _ X2 Henv) S2 C2) as [S3 [X3 E3]]; auto.
    split; auto. split; [eapply ext_trans; eauto |]. constructor; auto. exists u. split; auto. eapply addr_mono; eauto.
Qed.

(** ** Structures that may be assigned. *)
Lemma has_const_writable : (forall ms n t, In ms D -> In (TArr n t) ms -> is_const t = true \/ forall p, ~ const_at D (TArr n t) p) ->
  forall depth s, has_const D depth s = false -> writable (TStruct false s).
Proof.
  intros HA. induction depth as [| depth IH]; intros s H; [discriminate |]. cbn in H.
  destruct (nth_error D s) as [ms |] eqn:E; [| discriminate].
  intros q x F Hs. destruct q as [| i q]; [inversion F; subst; discriminate |].
  cbn in F. rewrite E in F. destruct (nth_error ms i) as [m |] eqn:Em; [| discriminate].
  assert (is_const m || match m with TStruct _ r => has_const D depth r | _ => false end = false) as Hm.
  { destruct (is_const m || match m with TStruct _ r => has_const D depth r | _ => false end) eqn:X; auto.
    assert (existsb (fun t => is_const t || match t with TStruct _ r => has_const D depth r | _ => false end) ms = true) as Y.
    { apply existsb_exists. exists m. split; auto. eapply nth_error_In; eauto. }
    rewrite Y in H. discriminate. }
  apply orb_false_iff in Hm. destruct Hm as [M1 M2].
  destruct m as [c | c b | n b | c r | c].
  - destruct q; cbn in F; [| discriminate]. inversion F; subst. auto.
  - destruct q; cbn in F; [| discriminate]. inversion F; subst. auto.
  - destruct (is_const x) eqn:Ex; auto. exfalso. destruct (HA ms n b) as [A | A].
    + eapply nth_error_In; eauto.
    + eapply nth_error_In; eauto.
    + cbn in M1. congruence.
    + apply (A q). eapply type_const_at; eauto.
  - cbn in M1. subst. eapply IH; eauto.
  - destruct q; cbn in F; [| discriminate]. inversion F; subst. discriminate.
Qed.
Lemma scalar_writable t : scalar t = true -> is_const t = false -> writable t.
Proof.
  intros Hs Hc q s F _. destruct q; [inversion F; subst; auto |]. destruct t; cbn in *; discriminate.
Qed.
End D.
