From Coq Require Import ZArith List Bool Lia.
From Verif Require Import Bits LanesModel LanesSpec ForeachProofs4 NumModel ExprModel ExprSpec.
Import ListNotations.
Local Open Scope Z_scope.

(** The condition of the general theorem: a right operand or arm that the compiler does not
    short-circuit has no effect (for && and ||) or no /= (for ? :), and below && || ? : only
    variables of an outer scope are assigned. *)
Fixpoint divs (e : expr) : bool :=
  match e with
  | Num _ | UVar _ | Var _ | Incr _ => false
  | DivAssign _ _ => true
  | Assign _ e | Load e | Call _ e => divs e
  | Add a b | Lt a b | Div a b | And a b | Or a b => divs a || divs b
  | Sel t a b => divs t || divs a || divs b
  end.

Fixpoint tame (cx : ctx) (cond : bool) (e : expr) : bool :=
  match e with
  | Num _ | UVar _ | Var _ => true
  | Incr x => implb cond (cx_outer cx x)
  | Assign x e | DivAssign x e => implb cond (cx_outer cx x) && tame cx cond e
  | Load e | Call _ e => tame cx cond e
  | Add a b | Lt a b | Div a b => tame cx cond a && tame cx cond b
  | And a b | Or a b => tame cx cond a && tame cx true b && (short_circuit cx b || negb (assigns b))
  | Sel t a b => tame cx cond t && tame cx true a && tame cx true b &&
                 (short_circuit cx a || negb (divs a)) && (short_circuit cx b || negb (divs b))
  end.

Lemma not_assigns_tame cx : forall e cond, assigns e = false -> tame cx cond e = true.
Proof.
  induction e; intros cond H; cbn [assigns tame] in *; try discriminate; auto;
    repeat match goal with H : _ || _ = false |- _ => apply orb_false_iff in H as [? ?] end;
    repeat match goal with IH : forall c, assigns ?e = false -> _, H : assigns ?e = false |- _ =>
      rewrite ?(IH true H), ?(IH cond H); clear IH end; try reflexivity.
  - now rewrite H0, orb_true_r.
  - now rewrite H0, orb_true_r.
  - assert (D : forall e, assigns e = false -> divs e = false).
    { clear. induction e; intros H; cbn [assigns divs] in *; try discriminate; auto;
      repeat match goal with H : _ || _ = false |- _ => apply orb_false_iff in H as [? ?] end;
      repeat match goal with IH : assigns ?e = false -> _, H : assigns ?e = false |- _ => rewrite (IH H); clear IH end; reflexivity. }
    rewrite !D by assumption. now rewrite !orb_true_r.
Qed.

Lemma plain_tame cx : forall e, plain_operands e = true -> tame cx false e = true.
Proof.
  induction e; intros H; cbn [plain_operands tame implb] in *; auto;
    repeat match goal with H : _ && _ = true |- _ => apply andb_true_iff in H as [? ?] end;
    repeat match goal with IH : plain_operands ?e = true -> _, H : plain_operands ?e = true |- _ => rewrite (IH H); clear IH end;
    try reflexivity.
  - assert (A : assigns e2 = false) by now apply negb_true_iff.
    rewrite (not_assigns_tame cx e2 true A), A. cbn. apply orb_true_r.
  - assert (A : assigns e2 = false) by now apply negb_true_iff.
    rewrite (not_assigns_tame cx e2 true A), A. cbn. apply orb_true_r.
  - assert (A : assigns e2 = false) by now apply negb_true_iff.
    assert (B : assigns e3 = false) by now apply negb_true_iff.
    pose proof (not_assigns_tame cx (Sel e1 e2 e3) true) as T. cbn [assigns tame] in T.
    rewrite (not_assigns_tame cx e2 true A), (not_assigns_tame cx e3 true B).
    assert (D : forall e, assigns e = false -> divs e = false).
    { clear. induction e; intros H; cbn [assigns divs] in *; try discriminate; auto;
      repeat match goal with H : _ || _ = false |- _ => apply orb_false_iff in H as [? ?] end;
      repeat match goal with IH : assigns ?e = false -> _, H : assigns ?e = false |- _ => rewrite (IH H); clear IH end; reflexivity. }
    rewrite !D by assumption. now rewrite !orb_true_r.
Qed.

Section Eval.
Variable cx : ctx.
Hypothesis Hwrap : cx_nsw cx = false.
Local Notation W := (cx_width cx).
Local Notation ev := (ceval false (cx_uvar cx) (cx_array cx) (cx_fn cx)).

Definition res (e : expr) (s : lstate) : Z * lstate := match ev e s with Some p => p | None => (0, s) end.

Lemma res_some e s p : ev e s = Some p -> res e s = p.
Proof. unfold res. now intros ->. Qed.

Definition sim (l : nat) (s : gstate) (q : lstate) : Prop :=
  (forall x, g_env s l x = Some (l_env q x)) /\ g_calls s l = l_calls q.
Definition no_poison (s : gstate) : Prop := forall l x, (l < W)%nat -> g_env s l x <> None.
Definition frame (cond : bool) (l : nat) (s s' : gstate) : Prop :=
  (forall x, cx_outer cx x = true \/ cond = true -> g_env s' l x = g_env s l x) /\ g_calls s' l = g_calls s l.

Lemma frame_refl cond l s : frame cond l s s.
Proof. split; auto. Qed.
Lemma frame_trans cond l s1 s2 s3 : frame cond l s1 s2 -> frame cond l s2 s3 -> frame cond l s1 s3.
Proof. intros [A B] [C D]. split; [intros x Hx; rewrite C, A; auto|congruence]. Qed.
Lemma frame_weaken cond l s s' : frame true l s s' -> frame cond l s s'.
Proof. intros [A B]. split; auto. Qed.
Lemma sim_frame l s s' q : sim l s q -> frame true l s s' -> sim l s' q.
Proof. intros [A B] [C D]. split; [intros x; rewrite C by (now right); apply A|congruence]. Qed.

(* values are fully defined, uniform or varying as the type says *)
Definition kind (u : bool) (v : value) : Prop :=
  if u then exists z, v = U (Some z) else exists g, v = V g /\ forall l, (l < W)%nat -> g l <> None.

Lemma kind_at u v l : kind u v -> (l < W)%nat -> exists z, at_lane v l = Some z.
Proof.
  intros K Hl. destruct u; cbn [kind] in K; [destruct K as (z & ->); cbn; eauto|]. destruct K as (g & -> & H). cbn. specialize (H l Hl).
  destruct (g l); eauto; congruence.
Qed.

Lemma kind_V g : (forall l, (l < W)%nat -> exists z, g l = Some z) -> kind false (V g).
Proof. intros H. exists g. split; [reflexivity|]. intros l Hl. destruct (H l Hl) as [z ->]. discriminate. Qed.

Lemma kind_bin f u1 u2 a b : (forall x y, f x y <> None) -> kind u1 a -> kind u2 b -> kind (u1 && u2) (bin f a b).
Proof.
  intros Hf Ka Kb. assert (X : forall x y, exists z, f x y = Some z) by (intros x y; specialize (Hf x y); destruct (f x y); eauto; congruence).
  assert (G : kind false (V (fun l => lift2 f (at_lane a l) (at_lane b l)))).
  { apply kind_V. intros l Hl. destruct (kind_at _ _ _ Ka Hl) as [x ->]. destruct (kind_at _ _ _ Kb Hl) as [y ->]. apply X. }
  destruct u1; cbn [andb].
  - destruct Ka as [x ->]. destruct u2; cbn.
    + destruct Kb as [y ->]. cbn. destruct (X x y) as [z ->]. eauto.
    + destruct Kb as (g & -> & Hg). exact G.
  - destruct Ka as (g & -> & Hg). destruct u2; exact G.
Qed.

Lemma at_bin f a b l : at_lane (bin f a b) l = lift2 f (at_lane a l) (at_lane b l).
Proof. destruct a, b; reflexivity. Qed.

Lemma at_coerce u v l : at_lane (coerce u v) l = at_lane v l.
Proof. destruct u; reflexivity. Qed.
Lemma kind_coerce u u' v : kind u' v -> (u = true -> u' = true) -> kind u (coerce u v).
Proof.
  intros K Hu. destruct u; cbn.
  - rewrite Hu in K by reflexivity. exact K.
  - apply kind_V. intros l Hl. exact (kind_at _ _ _ K Hl).
Qed.
Lemma at_as_bool v l : at_lane (as_bool v) l = bool1 (at_lane v l).
Proof. destruct v; reflexivity. Qed.
Lemma kind_as_bool u v : kind u v -> kind u (as_bool v).
Proof.
  intros K. destruct u.
  - destruct K as [z ->]. cbn. eauto.
  - pose proof (kind_at false v) as X. destruct K as (g & -> & Hg). apply kind_V.
    intros l Hl. specialize (Hg l Hl). destruct (g l); [cbn; eauto|congruence].
Qed.

Lemma defined_all_kind u v : kind u v -> defined_all W v = true.
Proof.
  intros K. unfold defined_all. apply forallb_forall. intros l Hl. apply in_seq in Hl.
  destruct (kind_at _ _ l K) as [z ->]; [lia|reflexivity].
Qed.

Lemma on_running mask : on W mask = true <-> exists l, (l < W)%nat /\ mask l = true.
Proof.
  unfold on. rewrite existsb_exists. split.
  - intros (l & Hl & M). apply in_seq in Hl. exists l. split; [lia|exact M].
  - intros (l & Hl & M). exists l. split; [apply in_seq; lia|exact M].
Qed.

(* an expression that assigns nothing and is safe with all lanes off always has a value *)
Lemma pure_safe_total : forall e, assigns e = false -> safe_all_off (length (cx_array cx)) e = true ->
  forall q, exists v, ev e q = Some (v, q).
Proof.
  induction e; intros HA HS q; cbn [assigns safe_all_off] in HA, HS; try discriminate;
    repeat match goal with H : _ || _ = false |- _ => apply orb_false_iff in H as [? ?] end;
    repeat match goal with H : _ && _ = true |- _ => apply andb_true_iff in H as [? ?] end; cbn [ceval];
    try (eexists; reflexivity).
  - destruct (IHe1 ltac:(assumption) ltac:(assumption) q) as [v ->]. destruct (IHe2 ltac:(assumption) ltac:(assumption) q) as [w ->]. unfold c_add. cbn [andb]. eexists. reflexivity.
  - destruct (IHe1 ltac:(assumption) ltac:(assumption) q) as [v ->]. destruct (IHe2 ltac:(assumption) ltac:(assumption) q) as [w ->]. eexists. reflexivity.
  - destruct e; try discriminate. apply andb_true_iff in HS as [A B]. apply Z.leb_le in A. apply Z.ltb_lt in B.
    cbn. unfold c_index. destruct (Z.ltb_spec z 0); [lia|].
    destruct (nth_error (cx_array cx) (Z.to_nat z)) as [x|] eqn:E; [eexists; reflexivity|].
    apply nth_error_None in E. lia.
  - destruct (IHe1 ltac:(assumption) ltac:(assumption) q) as [v ->]. destruct (c_true v); [|eexists; reflexivity].
    destruct (IHe2 ltac:(assumption) ltac:(assumption) q) as [w ->]. eexists. reflexivity.
  - destruct (IHe1 ltac:(assumption) ltac:(assumption) q) as [v ->]. destruct (c_true v); [eexists; reflexivity|].
    destruct (IHe2 ltac:(assumption) ltac:(assumption) q) as [w ->]. eexists. reflexivity.
  - destruct (IHe1 ltac:(assumption) ltac:(assumption) q) as [v ->]. destruct (c_true v).
    + destruct (IHe2 ltac:(assumption) ltac:(assumption) q) as [w ->]. eexists. reflexivity.
    + destruct (IHe3 ltac:(assumption) ltac:(assumption) q) as [w ->]. eexists. reflexivity.
Qed.

Definition G (e : expr) : Prop := forall cond mask s (q : nat -> lstate),
  tame cx cond e = true ->
  (on W mask = true \/ (safe_all_off (length (cx_array cx)) e = true /\ divs e = false)) ->
  no_poison s ->
  (forall l, (l < W)%nat -> mask l = true -> sim l s (q l) /\ ev e (q l) <> None) ->
  exists vv s', geval cx mask e s = Some (vv, s') /\ no_poison s' /\ kind (uni e) vv /\
    (forall l, (l < W)%nat -> mask l = true -> sim l s' (snd (res e (q l))) /\ at_lane vv l = Some (fst (res e (q l)))) /\
    (forall l, (l < W)%nat -> mask l = false -> frame cond l s s').

(* stores *)
Lemma store_spec cond mask x g s (q : nat -> lstate) (v : nat -> Z) :
  implb cond (cx_outer cx x) = true -> no_poison s ->
  (forall l, (l < W)%nat -> g l <> None) ->
  (forall l, (l < W)%nat -> mask l = true -> sim l s (q l) /\ g l = Some (v l)) ->
  no_poison (store cx mask x g s) /\
  (forall l, (l < W)%nat -> mask l = true -> sim l (store cx mask x g s) (LS (c_set (l_env (q l)) x (v l)) (l_calls (q l)))) /\
  (forall l, (l < W)%nat -> mask l = false -> frame cond l s (store cx mask x g s)).
Proof.
  intros Hc NP Hg Hs. unfold store. split; [|split].
  - intros l y Hl. cbn. destruct (mask l || negb (cx_outer cx x)); [|now apply NP].
    unfold env_set. destruct (Nat.eqb y x); [now apply Hg|now apply NP].
  - intros l Hl M. destruct (Hs l Hl M) as [[S1 S2] E]. split; cbn; [|exact S2].
    intros y. rewrite M. cbn. unfold env_set, c_set. destruct (Nat.eqb y x); [exact E|apply S1].
  - intros l Hl M. split; cbn; [|reflexivity]. intros y Hy. rewrite M. cbn [orb].
    destruct (cx_outer cx x) eqn:O; cbn [negb]; [reflexivity|].
    unfold env_set. destruct (Nat.eqb_spec y x); [|reflexivity]. subst y.
    destruct cond; [discriminate Hc|]. destruct Hy; congruence.
Qed.

Lemma add32_eq a b : add32 false a b = Some (wrap32 (a + b)).
Proof. reflexivity. Qed.
Lemma div1_eq a b : div1 (Some a) (Some b) = c_div a b.
Proof.
  unfold div1, div_scalar, c_div. cbn [is_signed_div andb]. change (- 2 ^ (32 - 1)) with (- 2 ^ 31).
  destruct (b =? 0); [reflexivity|]. cbn [orb]. destruct ((a =? - 2 ^ 31) && (b =? -1)); reflexivity.
Qed.
Lemma load1_eq i : load1 cx (Some i) = c_index (cx_array cx) i.
Proof.
  unfold load1, c_index. destruct (Z.leb_spec 0 i), (Z.ltb_spec i 0); try lia; reflexivity.
Qed.

Lemma on_off mask : on W mask = false -> forall l, (l < W)%nat -> mask l = false.
Proof.
  intros H l Hl. destruct (mask l) eqn:M; [|reflexivity].
  assert (on W mask = true) by (apply on_running; eauto). congruence.
Qed.

(* evaluation in sequence: e then a continuation *)
Ltac inv_ev H :=
  match type of H with
  | match ?x with Some _ => _ | None => None end <> None => destruct x as [[? ?]|] eqn:?; [|now destruct H]
  end.

Lemma truth_c z : truth z = c_true z.
Proof. reflexivity. Qed.
Lemma b2z_c b : b2z b = c_bool b.
Proof. destruct b; reflexivity. Qed.
Lemma c_true_bool b : c_true (c_bool b) = b.
Proof. destruct b; reflexivity. Qed.

Lemma G_bin (mk : expr -> expr -> expr) f (cf : Z -> Z -> Z) e1 e2 :
  (forall a b, f a b = Some (cf a b)) ->
  (forall mask s, geval cx mask (mk e1 e2) s = match geval cx mask e1 s with
      | None => None
      | Some (va, s) => match geval cx mask e2 s with None => None | Some (vb, s) => Some (bin f va vb, s) end end) ->
  (forall q, ev (mk e1 e2) q = match ev e1 q with
      | None => None
      | Some (x, s) => match ev e2 s with None => None | Some (y, s) => Some (cf x y, s) end end) ->
  (forall c, tame cx c (mk e1 e2) = tame cx c e1 && tame cx c e2) ->
  (safe_all_off (length (cx_array cx)) (mk e1 e2) = safe_all_off (length (cx_array cx)) e1 && safe_all_off (length (cx_array cx)) e2) ->
  divs (mk e1 e2) = divs e1 || divs e2 ->
  uni (mk e1 e2) = uni e1 && uni e2 ->
  G e1 -> G e2 -> G (mk e1 e2).
Proof.
  intros Hf Hg Hc Ht Hs Hd Hu G1 G2 cond mask s q T On NP H. rewrite Ht in T. apply andb_true_iff in T as [T1 T2].
  assert (On1 : on W mask = true \/ (safe_all_off (length (cx_array cx)) e1 = true /\ divs e1 = false)).
  { destruct On as [|[A B]]; [now left|]. rewrite Hs in A. rewrite Hd in B. apply andb_true_iff in A. apply orb_false_iff in B. right. tauto. }
  assert (On2 : on W mask = true \/ (safe_all_off (length (cx_array cx)) e2 = true /\ divs e2 = false)).
  { destruct On as [|[A B]]; [now left|]. rewrite Hs in A. rewrite Hd in B. apply andb_true_iff in A. apply orb_false_iff in B. right. tauto. }
  destruct (G1 cond mask s q T1 On1 NP) as (v1 & s1 & E1 & NP1 & K1 & R1 & F1).
  { intros l Hl M. destruct (H l Hl M) as [S N]. split; [exact S|]. rewrite Hc in N. now destruct (ev e1 (q l)). }
  destruct (G2 cond mask s1 (fun l => snd (res e1 (q l))) T2 On2 NP1) as (v2 & s2 & E2 & NP2 & K2 & R2 & F2).
  { intros l Hl M. destruct (H l Hl M) as [S N]. split; [now apply R1|]. rewrite Hc in N. unfold res.
    destruct (ev e1 (q l)) as [[x s']|]; [|now destruct N]. cbn. now destruct (ev e2 s'). }
  exists (bin f v1 v2), s2. rewrite Hg, E1, E2. split; [reflexivity|]. split; [exact NP2|].
  split; [rewrite Hu; apply kind_bin; auto; intros; rewrite Hf; discriminate|].
  split; [|intros l Hl M; eapply frame_trans; eauto].
  intros l Hl M. destruct (R1 l Hl M) as [S1 A1]. destruct (R2 l Hl M) as [S2 A2]. destruct (H l Hl M) as [_ N].
  rewrite at_bin, A1, A2. unfold lift2. rewrite Hf. rewrite Hc in N. unfold res in *. rewrite Hc.
  destruct (ev e1 (q l)) as [[x s']|]; [|now destruct N]. cbn [fst snd] in *.
  destruct (ev e2 s') as [[y s'']|]; [|now destruct N]. cbn. auto.
Qed.

Lemma kind_mask_value mask u v g : kind u v ->
  (forall l, (l < W)%nat -> mask l = true -> g l <> None) ->
  kind false (V (fun l => if mask l : bool then g l else Some (cx_junk cx l))).
Proof.
  intros K Hg. apply kind_V. intros l Hl. destruct (mask l) eqn:M; [|eauto].
  specialize (Hg l Hl M). destruct (g l); eauto; congruence.
Qed.

Lemma gdiv_spec mask u1 u2 a b (x y : nat -> Z) : kind u1 a -> kind u2 b -> on W mask = true ->
  (forall l, (l < W)%nat -> mask l = true -> at_lane a l = Some (x l) /\ at_lane b l = Some (y l) /\ c_div (x l) (y l) <> None) ->
  exists r, gdiv cx mask a b = Some r /\ kind (u1 && u2) r /\
    forall l, (l < W)%nat -> mask l = true -> at_lane r l = c_div (x l) (y l).
Proof.
  intros Ka Kb On H. destruct (u1 && u2) eqn:U.
  - apply andb_true_iff in U as [-> ->]. destruct Ka as [xa ->]. destruct Kb as [yb ->]. cbn [gdiv].
    apply on_running in On as (l0 & Hl0 & M0). destruct (H l0 Hl0 M0) as (A & B & C). cbn in A, B. injection A as A. injection B as B.
    rewrite div1_eq, A, B. destruct (c_div (x l0) (y l0)) as [z|] eqn:D; [|congruence].
    exists (U (Some z)). split; [reflexivity|]. split; [eexists; reflexivity|].
    intros l Hl M. destruct (H l Hl M) as (A' & B' & _). cbn in *. injection A' as <-. injection B' as <-. now subst.
  - assert (FB : forallb (fun l => implb (mask l) (match div1 (at_lane a l) (at_lane b l) with Some _ => true | None => false end)) (lanes W) = true).
    { apply forallb_forall. intros l Hl. apply in_seq in Hl. destruct (mask l) eqn:M; [|reflexivity]. cbn.
      destruct (H l) as (-> & -> & C); [lia|exact M|]. rewrite div1_eq. now destruct (c_div (x l) (y l)). }
    assert (E : gdiv cx mask a b = Some (V (fun l => if mask l then div1 (at_lane a l) (at_lane b l) else Some (cx_junk cx l)))).
    { unfold gdiv. rewrite On, FB. cbn [andb]. destruct u1; cbn in U.
      - subst u2. destruct Kb as (g & -> & _). now destruct a.
      - destruct Ka as (g & -> & _). reflexivity. }
    eexists. split; [exact E|]. split.
    + eapply kind_mask_value; [exact Ka|]. intros l Hl M. destruct (H l Hl M) as (-> & -> & C). rewrite div1_eq. exact C.
    + intros l Hl M. cbn. rewrite M. destruct (H l Hl M) as (-> & -> & C). apply div1_eq.
Qed.

Lemma gload_spec mask u i (x : nat -> Z) : kind u i ->
  (on W mask = true \/ exists z, i = U (Some z) /\ c_index (cx_array cx) z <> None) ->
  (forall l, (l < W)%nat -> mask l = true -> at_lane i l = Some (x l) /\ c_index (cx_array cx) (x l) <> None) ->
  exists r, gload cx mask i = Some r /\ kind u r /\
    forall l, (l < W)%nat -> mask l = true -> at_lane r l = c_index (cx_array cx) (x l).
Proof.
  intros K On H. destruct u.
  - destruct K as [z ->]. cbn [gload]. rewrite load1_eq.
    assert (C : c_index (cx_array cx) z <> None).
    { destruct On as [On|(z' & E & C)]; [|congruence].
      apply on_running in On as (l0 & Hl0 & M0). destruct (H l0 Hl0 M0) as (A & C). cbn in A. congruence. }
    destruct (c_index (cx_array cx) z) as [r|] eqn:D; [|congruence].
    exists (U (Some r)). split; [reflexivity|]. split; [eexists; reflexivity|].
    intros l Hl M. destruct (H l Hl M) as (A' & _). cbn in *. congruence.
  - destruct K as (g & -> & Hg). cbn [gload].
    replace (forallb _ (lanes W)) with true.
    2:{ symmetry. apply forallb_forall. intros l Hl. apply in_seq in Hl. destruct (mask l) eqn:M; [|reflexivity]. cbn.
        destruct (H l) as (A & C); [lia|exact M|]. cbn in A. rewrite A, load1_eq. now destruct (c_index (cx_array cx) (x l)). }
    eexists. split; [reflexivity|]. split.
    + apply kind_V. intros l Hl. destruct (mask l) eqn:M; [|eauto]. destruct (H l Hl M) as (A & C). cbn in A.
      rewrite A, load1_eq. destruct (c_index _ _); eauto; congruence.
    + intros l Hl M. cbn. rewrite M. destruct (H l Hl M) as (A & C). cbn in A. rewrite A. apply load1_eq.
Qed.
End Eval.
