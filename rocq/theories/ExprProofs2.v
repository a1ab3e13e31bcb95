From Coq Require Import ZArith List Bool Lia.
From Verif Require Import Bits LanesModel LanesSpec ForeachProofs4 NumModel ExprModel ExprSpec ExprProofs.
Import ListNotations.
Local Open Scope Z_scope.

Section Eval.
Variable cx : ctx.
Hypothesis Hwrap : cx_nsw cx = false.
Local Notation W := (cx_width cx).
Local Notation ev := (ceval false (cx_uvar cx) (cx_array cx) (cx_fn cx)).
Local Notation res := (res cx).
Local Notation G := (G cx).
Local Notation safe := (safe_all_off (length (cx_array cx))).

Lemma G_num z : G (Num z).
Proof.
  intros cond mask s q _ _ NP H. exists (U (Some z)), s. cbn [geval]. split; [reflexivity|]. split; [exact NP|].
  split; [eexists; reflexivity|]. split; [|intros; apply frame_refl].
  intros l Hl M. split; [apply H; auto|reflexivity].
Qed.
Lemma G_uvar u : G (UVar u).
Proof.
  intros cond mask s q _ _ NP H. exists (U (Some (cx_uvar cx u))), s. cbn [geval]. split; [reflexivity|]. split; [exact NP|].
  split; [eexists; reflexivity|]. split; [|intros; apply frame_refl].
  intros l Hl M. split; [apply H; auto|reflexivity].
Qed.
Lemma G_var x : G (Var x).
Proof.
  intros cond mask s q _ _ NP H. eexists (V _), s. cbn [geval]. split; [reflexivity|]. split; [exact NP|].
  split; [|split; [|intros; apply frame_refl]].
  - eexists. split; [reflexivity|]. intros l Hl. now apply NP.
  - intros l Hl M. destruct (H l Hl M) as [[S1 S2] _]. split; [now split|]. cbn. apply S1.
Qed.

Lemma G_incr x : G (Incr x).
Proof.
  intros cond mask s q T _ NP H. cbn [geval tame] in *. rewrite Hwrap.
  set (g := fun l => lift2 (add32 false) (g_env s l x) (Some 1)).
  assert (Hg : forall l, (l < W)%nat -> g l <> None).
  { intros l Hl. unfold g. specialize (NP l x Hl). destruct (g_env s l x); [discriminate|congruence]. }
  destruct (store_spec cx cond mask x g s q (fun l => wrap32 (l_env (q l) x + 1)) T NP Hg) as (A & B & C).
  { intros l Hl M. destruct (H l Hl M) as [[S1 S2] _]. split; [now split|]. unfold g. now rewrite S1. }
  do 2 eexists. split; [reflexivity|]. split; [exact A|]. split.
  - eexists. split; [reflexivity|]. intros l Hl. now apply NP.
  - split; [|exact C]. intros l Hl M. split; [apply (B l Hl M)|]. destruct (H l Hl M) as [[S1 S2] _]. cbn. apply S1.
Qed.

Lemma G_assign x e : G e -> G (Assign x e).
Proof.
  intros IH cond mask s q T On NP H. cbn [tame] in T. apply andb_true_iff in T as [Tx T].
  destruct (IH cond mask s q T On NP) as (v & s1 & E & NP1 & K & R & F).
  { intros l Hl M. destruct (H l Hl M) as [S N]. split; [exact S|]. cbn [ceval] in N. now destruct (ev e (q l)). }
  assert (Hg : forall l, (l < W)%nat -> at_lane v l <> None).
  { intros l Hl. destruct (kind_at _ _ _ _ K Hl) as [z ->]. discriminate. }
  destruct (store_spec cx cond mask x (at_lane v) s1 (fun l => snd (res e (q l))) (fun l => fst (res e (q l))) Tx NP1 Hg) as (A & B & C).
  { intros l Hl M. apply R; auto. }
  cbn [geval]. rewrite E. do 2 eexists. split; [reflexivity|]. split; [exact A|]. split.
  - eexists. split; [reflexivity|exact Hg].
  - split; [|intros l Hl M; eapply frame_trans; [apply F|apply C]; auto].
    intros l Hl M. destruct (H l Hl M) as [_ N]. destruct (R l Hl M) as [_ A1]. specialize (B l Hl M). cbn [at_lane].
    unfold ExprProofs.res in *. cbn [ceval] in *. destruct (ev e (q l)) as [[z s']|]; [|now destruct N]. cbn in *. auto.
Qed.

Lemma G_div a b : G a -> G b -> G (Div a b).
Proof.
  intros IHa IHb cond mask s q T On NP H. cbn [tame] in T. apply andb_true_iff in T as [T1 T2].
  destruct On as [On|[X _]]; [|discriminate].
  destruct (IHa cond mask s q T1 (or_introl On) NP) as (v1 & s1 & E1 & NP1 & K1 & R1 & F1).
  { intros l Hl M. destruct (H l Hl M) as [S N]. split; [exact S|]. cbn [ceval] in N. now destruct (ev a (q l)). }
  destruct (IHb cond mask s1 (fun l => snd (res a (q l))) T2 (or_introl On) NP1) as (v2 & s2 & E2 & NP2 & K2 & R2 & F2).
  { intros l Hl M. destruct (H l Hl M) as [S N]. split; [now apply R1|]. cbn [ceval] in N. unfold ExprProofs.res.
    destruct (ev a (q l)) as [[x s']|]; [|now destruct N]. cbn. now destruct (ev b s'). }
  destruct (gdiv_spec cx mask _ _ v1 v2 (fun l => fst (res a (q l))) (fun l => fst (res b (snd (res a (q l))))) K1 K2 On)
    as (r & Er & Kr & Vr).
  { intros l Hl M. destruct (R1 l Hl M) as [_ A1]. destruct (R2 l Hl M) as [_ A2]. destruct (H l Hl M) as [_ N].
    split; [exact A1|]. split; [exact A2|]. cbn [ceval] in N. unfold ExprProofs.res.
    destruct (ev a (q l)) as [[x s']|]; [|now destruct N]. cbn [fst snd].
    destruct (ev b s') as [[y s'']|]; [|now destruct N]. cbn [fst]. now destruct (c_div x y). }
  cbn [geval]. rewrite E1, E2, Er. do 2 eexists. split; [reflexivity|]. split; [exact NP2|]. split; [exact Kr|].
  split; [|intros l Hl M; eapply frame_trans; eauto].
  intros l Hl M. rewrite Vr by auto. destruct (R2 l Hl M) as [S2 _]. destruct (H l Hl M) as [_ N].
  unfold ExprProofs.res in *. cbn [ceval] in *.
  destruct (ev a (q l)) as [[x s']|]; [|now destruct N]. cbn [fst snd] in *.
  destruct (ev b s') as [[y s'']|]; [|now destruct N]. cbn [fst snd] in *.
  destruct (c_div x y); [|now destruct N]. auto.
Qed.

Lemma G_div_assign x e : G e -> G (DivAssign x e).
Proof.
  intros IH cond mask s q T On NP H. cbn [tame] in T. apply andb_true_iff in T as [Tx T].
  destruct On as [On|[_ X]]; [|discriminate].
  destruct (IH cond mask s q T (or_introl On) NP) as (v & s1 & E & NP1 & K & R & F).
  { intros l Hl M. destruct (H l Hl M) as [S N]. split; [exact S|]. cbn [ceval] in N. now destruct (ev e (q l)). }
  assert (Kx : kind cx false (V (fun l => g_env s1 l x))) by (eexists; split; [reflexivity|intros l Hl; now apply NP1]).
  destruct (gdiv_spec cx mask _ _ _ v (fun l => l_env (snd (res e (q l))) x) (fun l => fst (res e (q l))) Kx K On)
    as (r & Er & Kr & Vr).
  { intros l Hl M. destruct (R l Hl M) as [[S1 S2] A1]. destruct (H l Hl M) as [_ N]. split; [cbn; apply S1|]. split; [exact A1|].
    cbn [ceval] in N. unfold ExprProofs.res. destruct (ev e (q l)) as [[z s']|]; [|now destruct N]. cbn [fst snd].
    now destruct (c_div _ _). }
  cbn [andb] in Kr.
  assert (Hg : forall l, (l < W)%nat -> at_lane r l <> None).
  { intros l Hl. destruct (kind_at _ _ _ _ Kr Hl) as [z ->]. discriminate. }
  destruct (store_spec cx cond mask x (at_lane r) s1 (fun l => snd (res e (q l)))
     (fun l => match c_div (l_env (snd (res e (q l))) x) (fst (res e (q l))) with Some z => z | None => 0 end) Tx NP1 Hg) as (A & B & C).
  { intros l Hl M. split; [now apply R|]. rewrite Vr by auto. specialize (Hg l Hl). rewrite Vr in Hg by auto. now destruct (c_div _ _). }
  cbn [geval]. rewrite E, Er. do 2 eexists. split; [reflexivity|]. split; [exact A|]. split; [exact Kr|].
  split; [|intros l Hl M; eapply frame_trans; [apply F|apply C]; auto].
  intros l Hl M. specialize (B l Hl M). rewrite Vr by auto. destruct (H l Hl M) as [_ N].
  unfold ExprProofs.res in *. cbn [ceval] in *. destruct (ev e (q l)) as [[z s']|]; [|now destruct N]. cbn [fst snd] in *.
  destruct (c_div _ _); [|now destruct N]. auto.
Qed.

Lemma G_load e : G e -> G (Load e).
Proof.
  intros IH cond mask s q T On NP H. cbn [tame] in T.
  assert (On1 : on W mask = true \/ (safe e = true /\ divs e = false)).
  { destruct On as [|[A B]]; [now left|right]. destruct e; try discriminate. auto. }
  destruct (IH cond mask s q T On1 NP) as (v & s1 & E & NP1 & K & R & F).
  { intros l Hl M. destruct (H l Hl M) as [S N]. split; [exact S|]. cbn [ceval] in N. now destruct (ev e (q l)). }
  destruct (gload_spec cx mask _ v (fun l => fst (res e (q l))) K) as (r & Er & Kr & Vr).
  { destruct On as [|[A B]]; [now left|right]. destruct e; try discriminate. cbn [geval] in E. injection E as <- <-.
    exists z. split; [reflexivity|]. cbn in A. apply andb_true_iff in A as [A1 A2]. apply Z.leb_le in A1. apply Z.ltb_lt in A2.
    unfold c_index. destruct (Z.ltb_spec z 0); [lia|]. intros X. apply nth_error_None in X. lia. }
  { intros l Hl M. destruct (R l Hl M) as [_ A1]. split; [exact A1|]. destruct (H l Hl M) as [_ N].
    cbn [ceval] in N. unfold ExprProofs.res. destruct (ev e (q l)) as [[z s']|]; [|now destruct N]. cbn [fst]. now destruct (c_index _ _). }
  cbn [geval]. rewrite E, Er. do 2 eexists. split; [reflexivity|]. split; [exact NP1|]. split; [exact Kr|].
  split; [|exact F]. intros l Hl M. rewrite Vr by auto. destruct (R l Hl M) as [S1 _]. destruct (H l Hl M) as [_ N].
  unfold ExprProofs.res in *. cbn [ceval] in *. destruct (ev e (q l)) as [[z s']|]; [|now destruct N]. cbn [fst snd] in *.
  destruct (c_index _ _); [|now destruct N]. auto.
Qed.

Lemma G_call f e : G e -> G (Call f e).
Proof.
  intros IH cond mask s q T On NP H. cbn [tame] in T.
  destruct On as [On|[X _]]; [|discriminate].
  destruct (IH cond mask s q T (or_introl On) NP) as (v & s1 & E & NP1 & K & R & F).
  { intros l Hl M. destruct (H l Hl M) as [S N]. split; [exact S|]. cbn [ceval] in N. now destruct (ev e (q l)). }
  cbn [geval]. rewrite E. unfold gcall. rewrite On.
  replace (forallb _ (lanes W)) with true.
  2:{ symmetry. apply forallb_forall. intros l Hl. apply in_seq in Hl. destruct (mask l) eqn:M; [|reflexivity]. cbn.
      destruct (R l) as [_ ->]; auto. lia. }
  cbn [andb]. do 2 eexists. split; [reflexivity|]. split; [|split; [|split]].
  - intros l x Hl. cbn. now apply NP1.
  - cbn [uni]. destruct (uni e).
    + destruct K as [z ->]. eexists. reflexivity.
    + destruct K as (g & -> & Hg). apply kind_V. intros l Hl. specialize (Hg l Hl). destruct (mask l); [|eauto].
      destruct (g l); eauto; congruence.
  - intros l Hl M. destruct (R l Hl M) as [[S1 S2] A1]. destruct (H l Hl M) as [_ N].
    assert (X : at_lane (match v with
             | U z => U (match z with Some z => Some (cx_fn cx f z) | None => None end)
             | V g => V (fun l => if mask l then match g l with Some z => Some (cx_fn cx f z) | None => None end
                                  else Some (cx_junk cx l))
             end) l = Some (cx_fn cx f (fst (res e (q l))))).
    { destruct v; cbn in *; [now rewrite A1|]. now rewrite M, A1. }
    rewrite X. unfold ExprProofs.res in *. cbn [ceval] in *. destruct (ev e (q l)) as [[z s']|]; [|now destruct N]. cbn [fst snd] in *.
    split; [|reflexivity]. split; [exact S1|]. cbn. rewrite M, A1, S2. reflexivity.
  - intros l Hl M. destruct (F l Hl M) as [F1 F2]. split; [exact F1|]. cbn. now rewrite M.
Qed.

(** ** The logical operators *)

Lemma bool1_some z : bool1 (Some z) = Some (c_bool (c_true z)).
Proof. cbn. now rewrite b2z_c. Qed.

Lemma safe_or_on e1 mask (Q : Prop) : (on W mask = true \/ (safe e1 = true /\ Q)) -> on W mask = true \/ safe e1 = true.
Proof. tauto. Qed.

Definition jn (isand : bool) (x : Z) : bool := if isand then c_true x else negb (c_true x).

(* both operators: [jn] says when the right operand is needed *)
Lemma G_logical (isand : bool) a b : G a -> G b -> G (if isand then And a b else Or a b).
Proof.
  intros IHa IHb cond mask s q T On NP H.
  assert (T' : tame cx cond a && tame cx true b && (short_circuit cx b || negb (assigns b)) = true) by (destruct isand; exact T).
  clear T. apply andb_true_iff in T' as [T' TS]. apply andb_true_iff in T' as [T1 T2].
  assert (On' : on W mask = true \/ ((safe a = true /\ divs a = false) /\ (safe b = true /\ divs b = false))).
  { destruct On as [|[A B]]; [now left|right]. 
    assert (safe a && safe b = true) by (destruct isand; exact A). assert (divs a || divs b = false) by (destruct isand; exact B).
    rewrite andb_true_iff in *. rewrite orb_false_iff in *. tauto. }
  clear On.
  (* the meaning of the expression *)
  assert (EV : forall l, (l < W)%nat -> mask l = true -> 
     ev a (q l) <> None /\
     (jn isand (fst (res a (q l))) = true -> ev b (snd (res a (q l))) <> None /\
        res (if isand then And a b else Or a b) (q l) =
        (c_bool (c_true (fst (res b (snd (res a (q l)))))), snd (res b (snd (res a (q l)))))) /\
     (jn isand (fst (res a (q l))) = false ->
        res (if isand then And a b else Or a b) (q l) = (c_bool (negb isand), snd (res a (q l))))).
  { intros l Hl M. destruct (H l Hl M) as [_ N]. unfold ExprProofs.res. destruct isand; cbn [ceval] in *;
    destruct (ev a (q l)) as [[x s']|]; try (now destruct N); cbn [fst snd jn] in *; (split; [discriminate|]);
    destruct (c_true x) eqn:CX; cbn [negb] in *; (split; [intros X; try discriminate X|intros X; try discriminate X; auto]);
    destruct (ev b s') as [[y s'']|]; try (now destruct N); split; try discriminate; reflexivity. }
  destruct (IHa cond mask s q T1) as (v1 & s1 & E1 & NP1 & K1 & R1 & F1); [tauto|exact NP|..].
  { intros l Hl M. split; [now apply H|now apply EV]. }
  pose proof (kind_as_bool _ _ _ K1) as KB1.
  assert (B1 : forall l, (l < W)%nat -> mask l = true -> at_lane (as_bool v1) l = Some (c_bool (c_true (fst (res a (q l)))))).
  { intros l Hl M. rewrite at_as_bool. destruct (R1 l Hl M) as [_ ->]. apply bool1_some. }
  assert (UU : uni (if isand then And a b else Or a b) = uni a && uni b) by (destruct isand; reflexivity).
  destruct (short_circuit cx b) eqn:SC; cbn [orb negb] in TS.
  2:{ (* both sides are evaluated *)
      apply negb_true_iff in TS. pose proof SC as SC0. unfold short_circuit in SC. apply orb_false_iff in SC as [_ SC]. apply negb_false_iff in SC.
      assert (DB : divs b = false).
      { revert TS. clear. induction b; intros H; cbn [assigns divs] in *; try discriminate; auto;
        repeat match goal with H : _ || _ = false |- _ => apply orb_false_iff in H as [? ?] end;
        repeat match goal with IH : assigns ?e = false -> _, H : assigns ?e = false |- _ => rewrite (IH H); clear IH end; reflexivity. }
      assert (PURE : forall p, exists v, ev b p = Some (v, p)) by (apply pure_safe_total; auto).
      destruct (IHb true mask s1 (fun l => snd (res a (q l))) T2) as (v2 & s2 & E2 & NP2 & K2 & R2 & F2); [now right|exact NP1|..].
      { intros l Hl M. split; [now apply R1|]. destruct (PURE (snd (res a (q l)))) as [v ->]. discriminate. }
      pose proof (kind_as_bool _ _ _ K2) as KB2.
      exists (bin (if isand then and1 else or1) (as_bool v1) (as_bool v2)), s2.
      split; [|split; [exact NP2|split; [rewrite UU; apply kind_bin; auto; destruct isand; discriminate|split]]].
      - destruct isand; cbn [geval]; rewrite E1; cbv zeta; rewrite SC0; cbn [negb]; rewrite E2; reflexivity.
      - intros l Hl M. rewrite at_bin, B1 by auto. rewrite at_as_bool. destruct (R2 l Hl M) as [S2 A2].
        rewrite A2, bool1_some. destruct (PURE (snd (res a (q l)))) as [w Ew]. rewrite (res_some _ _ _ _ Ew) in *. cbn [fst snd] in *.
        destruct (EV l Hl M) as (_ & Y & N). destruct (jn isand (fst (res a (q l)))) eqn:J.
        + destruct (Y eq_refl) as [_ ->]. rewrite (res_some _ _ _ _ Ew). cbn [fst snd]. split; [exact S2|].
          destruct isand; cbn [jn] in J; unfold lift2, and1, or1; change truth with c_true; rewrite !c_true_bool, b2z_c.
          * now rewrite J.
          * apply negb_true_iff in J. now rewrite J.
        + rewrite (N eq_refl). cbn [fst snd]. split; [exact S2|].
          destruct isand; cbn [jn] in J; unfold lift2, and1, or1; change truth with c_true; rewrite !c_true_bool, b2z_c.
          * now rewrite J.
          * apply negb_false_iff in J. now rewrite J.
      - intros l Hl M. eapply frame_trans; [now apply F1|]. apply frame_weaken. now apply F2. }
  destruct (uni a) eqn:UA.
  - (* a uniform left operand: a branch *)
    destruct K1 as [z1 ->]. cbn [as_bool bool1] in *.
    assert (Z1 : forall l, (l < W)%nat -> mask l = true -> c_true (fst (res a (q l))) = truth z1).
    { intros l Hl M. specialize (B1 l Hl M). cbn in B1. injection B1 as B1. rewrite b2z_c in B1.
      change (truth z1) with (c_true z1) in *. destruct (c_true z1), (c_true (fst (res a (q l)))); cbn in B1; congruence. }
    destruct (jn isand z1) eqn:J.
    + (* the right operand decides *)
      destruct (IHb true mask s1 (fun l => snd (res a (q l))) T2) as (v2 & s2 & E2 & NP2 & K2 & R2 & F2); [tauto|exact NP1|..].
      { intros l Hl M. split; [now apply R1|]. apply EV; auto. unfold jn in *. rewrite Z1 by auto. exact J. }
      exists (coerce (uni b) (as_bool v2)), s2. split; [|split; [exact NP2|split; [|split]]].
      * destruct isand; cbn [geval jn] in *; rewrite E1; cbv zeta; rewrite SC; cbn [negb as_bool bool1]; change truth with c_true; rewrite b2z_c, c_true_bool.
        { rewrite J, E2. reflexivity. }
        { apply negb_true_iff in J. rewrite J, E2. reflexivity. }
      * rewrite UU. cbn [andb]. apply kind_coerce with (u' := uni b); [now apply kind_as_bool|auto].
      * intros l Hl M. rewrite at_coerce, at_as_bool. destruct (R2 l Hl M) as [S2 ->].
        assert (Y : jn isand (fst (res a (q l))) = true) by (unfold jn in *; rewrite Z1 by auto; exact J).
        destruct (EV l Hl M) as (_ & Y' & _). destruct (Y' Y) as [_ ->]. cbn [fst snd]. split; [exact S2|apply bool1_some].
      * intros l Hl M. eapply frame_trans; [now apply F1|]. apply frame_weaken. now apply F2.
    + exists (coerce (uni b) (U (Some (c_bool (negb isand))))), s1. split; [|split; [exact NP1|split; [|split; [|exact F1]]]].
      * destruct isand; cbn [geval jn] in *; rewrite E1; cbv zeta; rewrite SC; cbn [negb as_bool bool1]; change truth with c_true; rewrite b2z_c, c_true_bool.
        { rewrite J. reflexivity. }
        { apply negb_false_iff in J. rewrite J. reflexivity. }
      * rewrite UU. cbn [andb]. apply kind_coerce with (u' := true); [eexists; reflexivity|auto].
      * intros l Hl M. rewrite at_coerce. destruct (EV l Hl M) as (_ & _ & N).
        rewrite N by (unfold jn in *; rewrite Z1 by auto; exact J). cbn [fst snd]. split; [now apply R1|reflexivity].
  - (* a varying left operand *)
    destruct K1 as (g1 & -> & Hg1).
    set (va := as_bool (V g1)) in *.
    assert (HH : forall l, (l < W)%nat -> mask l = true -> holds va l = c_true (fst (res a (q l)))).
    { intros l Hl M. unfold holds. rewrite B1 by auto. change truth with c_true; now rewrite c_true_bool. }
    assert (VA : exists g, va = V g) by (eexists; reflexivity). destruct VA as [ga Ega].
    assert (MV : forall A (k1 : option Z -> A) (k2 : gang (option Z) -> A), match va with U z => k1 z | V g => k2 g end = k2 ga)
      by (intros; rewrite Ega; reflexivity).
    assert (KG : forall isand' : bool, geval cx mask (if isand' then And a b else Or a b) s =
       if forallb (fun l => implb (mask l) (if isand' then negb (holds va l) else holds va l)) (lanes W) then Some (va, s1)
       else let mask1 := fun l => mask l && (if isand' : bool then holds va l else negb (holds va l)) in
         match geval cx mask1 b s1 with
         | None => None
         | Some (vb, s) => Some (V (fun l => lift2 (if isand' : bool then and1 else or1) (lift2 and1 (at_lane va l) (Some (b2z (mask l))))
                                   (lift2 and1 (at_lane (as_bool vb) l) (Some (b2z (mask1 l))))), s)
         end).
    { intros isand'. pose proof (defined_all_kind _ _ _ KB1) as DA. fold va in DA.
      destruct isand'; cbn [geval]; rewrite E1; cbv zeta; fold va; rewrite SC; cbn [negb];
      (etransitivity; [apply MV|]); cbn beta; rewrite DA; reflexivity. }
    rewrite UU. cbn [andb].
    destruct (forallb (fun l => implb (mask l) (if isand then negb (holds va l) else holds va l)) (lanes W)) eqn:SK.
    + (* no lane needs the right operand *)
      exists va, s1. rewrite KG, SK. split; [reflexivity|]. split; [exact NP1|]. split; [exact KB1|]. split; [|exact F1].
      intros l Hl M. rewrite forallb_forall in SK. specialize (SK l). rewrite M in SK. cbn [implb] in SK.
      assert (In l (lanes W)) by (apply in_seq; lia). specialize (SK H0). 
      assert (J : jn isand (fst (res a (q l))) = false).
      { unfold jn. destruct isand; rewrite HH in SK by auto; [now apply negb_true_iff in SK|now rewrite SK]. }
      destruct (EV l Hl M) as (_ & _ & N). rewrite (N J). cbn [fst snd]. split; [now apply R1|].
      rewrite B1 by auto. f_equal. unfold jn in J. destruct isand; [now rewrite J|]. apply negb_false_iff in J. now rewrite J.
    + set (mask1 := fun l => mask l && (if isand then holds va l else negb (holds va l))).
      assert (MJ : forall l, (l < W)%nat -> mask l = true -> mask1 l = jn isand (fst (res a (q l)))).
      { intros l Hl M. unfold mask1, jn. rewrite M. cbn [andb]. now rewrite HH. }
      assert (M1 : forall l, mask1 l = true -> mask l = true) by (intros l; unfold mask1; rewrite andb_true_iff; tauto).
      assert (ON1 : on W mask1 = true).
      { destruct (on W mask1) eqn:X; [reflexivity|]. exfalso. rewrite <- not_true_iff_false in SK. apply SK. apply forallb_forall.
        intros l Hl. apply in_seq in Hl. pose proof (on_off _ _ X l ltac:(lia)) as Y. unfold mask1 in Y.
        destruct (mask l); [|reflexivity]. cbn in *. destruct isand; [now rewrite Y|now apply negb_false_iff in Y]. }
      destruct (IHb true mask1 s1 (fun l => snd (res a (q l))) T2) as (v2 & s2 & E2 & NP2 & K2 & R2 & F2); [now left|exact NP1|..].
      { intros l Hl M. split; [apply R1; auto|]. apply EV; auto. rewrite <- MJ; auto. }
      eexists (V _), s2. rewrite KG, SK. cbv zeta. fold mask1. rewrite E2. split; [reflexivity|]. split; [exact NP2|].
      pose proof (kind_as_bool _ _ _ K2) as KB2.
      split; [|split].
      * apply kind_V. intros l Hl. destruct (kind_at _ _ _ _ KB1 Hl) as [x Ex]. fold va in Ex. rewrite Ex.
        destruct (kind_at _ _ _ _ KB2 Hl) as [y Ey]. rewrite Ey. destruct isand; eexists; reflexivity.
      * intros l Hl M. cbn [at_lane]. rewrite B1 by auto. destruct (EV l Hl M) as (_ & Y & N). rewrite M.
        destruct (jn isand (fst (res a (q l)))) eqn:J.
        { pose proof (MJ l Hl M) as MM. rewrite J in MM. destruct (R2 l Hl MM) as [S2 A2]. rewrite at_as_bool, A2, bool1_some.
          destruct (Y eq_refl) as [_ ->]. cbn [fst snd]. split; [exact S2|]. rewrite MM.
          unfold jn in J. destruct isand; [|apply negb_true_iff in J]; unfold lift2, and1, or1; change truth with c_true; rewrite ?b2z_c, !c_true_bool, J;
            cbn [c_bool]; rewrite ?c_true_bool; destruct (c_true (fst (res b _))); reflexivity. }
        { pose proof (MJ l Hl M) as MM. rewrite J in MM. rewrite (N eq_refl). cbn [fst snd].
          split; [eapply sim_frame; [apply R1; auto|now apply F2]|]. rewrite MM.
          destruct (kind_at _ _ _ _ KB2 Hl) as [y ->].
          unfold jn in J. destruct isand; [|apply negb_false_iff in J]; unfold lift2, and1, or1; change truth with c_true; rewrite ?b2z_c, !c_true_bool, J;
            cbn [c_bool]; destruct (c_true y); reflexivity. }
      * intros l Hl M. eapply frame_trans; [now apply F1|]. apply frame_weaken. apply F2; auto. unfold mask1. now rewrite M.
Qed.

(* one arm of a selection with a varying test *)
Lemma arm e mask1 s (q : nat -> lstate) : G e -> tame cx true e = true ->
  short_circuit cx e || negb (divs e) = true -> no_poison cx s ->
  (forall l, (l < W)%nat -> mask1 l = true -> sim l s (q l) /\ ev e (q l) <> None) ->
  exists vv s', (if short_circuit cx e && negb (on W mask1) then Some (V (fun l => Some (cx_junk cx l)), s)
                 else geval cx mask1 e s) = Some (vv, s') /\ no_poison cx s' /\
    (forall l, (l < W)%nat -> exists z, at_lane vv l = Some z) /\
    (forall l, (l < W)%nat -> mask1 l = true -> sim l s' (snd (res e (q l))) /\ at_lane vv l = Some (fst (res e (q l)))) /\
    (forall l, (l < W)%nat -> mask1 l = false -> frame cx true l s s').
Proof.
  intros IH T TS NP H. destruct (short_circuit cx e && negb (on W mask1)) eqn:SK.
  - apply andb_true_iff in SK as [_ SK]. apply negb_true_iff in SK. do 2 eexists. split; [reflexivity|]. split; [exact NP|].
    split; [cbn; eauto|]. split; [|intros; apply frame_refl]. intros l Hl M. rewrite (on_off _ _ SK l Hl) in M. discriminate.
  - destruct (IH true mask1 s q T) as (vv & s' & E & NP' & K & R & F); [|exact NP|exact H|].
    + destruct (on W mask1); [now left|right]. rewrite andb_true_r in SK. rewrite SK in TS. cbn in TS.
      apply negb_true_iff in TS. unfold short_circuit in SK. apply orb_false_iff in SK as [_ SK]. apply negb_false_iff in SK. auto.
    + exists vv, s'. split; [exact E|]. split; [exact NP'|]. split; [|auto]. intros l Hl. exact (kind_at _ _ _ _ K Hl).
Qed.

Lemma G_sel t a b : G t -> G a -> G b -> G (Sel t a b).
Proof.
  intros IHt IHa IHb cond mask s q T On NP H. cbn [tame] in T.
  apply andb_true_iff in T as [T Sb]. apply andb_true_iff in T as [T Sa]. apply andb_true_iff in T as [T Tb].
  apply andb_true_iff in T as [T Ta].
  assert (On' : on W mask = true \/ ((safe t = true /\ divs t = false) /\ (safe a = true /\ divs a = false) /\ (safe b = true /\ divs b = false))).
  { destruct On as [|[A B]]; [now left|right]. cbn in A, B. rewrite !andb_true_iff in A. rewrite !orb_false_iff in B. tauto. }
  clear On.
  assert (EV : forall l, (l < W)%nat -> mask l = true -> ev t (q l) <> None /\
     (c_true (fst (res t (q l))) = true -> ev a (snd (res t (q l))) <> None /\ res (Sel t a b) (q l) = res a (snd (res t (q l)))) /\
     (c_true (fst (res t (q l))) = false -> ev b (snd (res t (q l))) <> None /\ res (Sel t a b) (q l) = res b (snd (res t (q l))))).
  { intros l Hl M. destruct (H l Hl M) as [_ N]. unfold ExprProofs.res. cbn [ceval] in *.
    destruct (ev t (q l)) as [[x s']|]; [|now destruct N]. cbn [fst snd] in *. split; [discriminate|].
    destruct (c_true x); split; intros X; try discriminate X.
    - destruct (ev a s') as [[y s'']|]; [|now destruct N]. split; [discriminate|reflexivity].
    - destruct (ev b s') as [[y s'']|]; [|now destruct N]. split; [discriminate|reflexivity]. }
  destruct (IHt cond mask s q T) as (vt & s1 & E1 & NP1 & K1 & R1 & F1); [tauto|exact NP|..].
  { intros l Hl M. split; [now apply H|now apply EV]. }
  destruct (uni t) eqn:UT.
  - destruct K1 as [z ->].
    assert (Z1 : forall l, (l < W)%nat -> mask l = true -> fst (res t (q l)) = z).
    { intros l Hl M. destruct (R1 l Hl M) as [_ X]. cbn in X. congruence. }
    cbn [geval]. rewrite E1. change truth with c_true. destruct (c_true z) eqn:CZ.
    + destruct (IHa true mask s1 (fun l => snd (res t (q l))) Ta) as (v2 & s2 & E2 & NP2 & K2 & R2 & F2); [tauto|exact NP1|..].
      { intros l Hl M. split; [now apply R1|]. apply EV; auto. now rewrite Z1. }
      rewrite E2. do 2 eexists. split; [reflexivity|]. split; [exact NP2|]. split; [|split].
      * cbn [uni]. rewrite UT. cbn [andb]. eapply kind_coerce; [exact K2|]. intros X. now apply andb_true_iff in X.
      * intros l Hl M. rewrite at_coerce. destruct (EV l Hl M) as (_ & Y & _). rewrite Z1 in Y by auto. destruct (Y CZ) as [_ ->]. now apply R2.
      * intros l Hl M. eapply frame_trans; [now apply F1|]. apply frame_weaken. now apply F2.
    + destruct (IHb true mask s1 (fun l => snd (res t (q l))) Tb) as (v2 & s2 & E2 & NP2 & K2 & R2 & F2); [tauto|exact NP1|..].
      { intros l Hl M. split; [now apply R1|]. apply EV; auto. now rewrite Z1. }
      rewrite E2. do 2 eexists. split; [reflexivity|]. split; [exact NP2|]. split; [|split].
      * cbn [uni]. rewrite UT. cbn [andb]. eapply kind_coerce; [exact K2|]. intros X. now apply andb_true_iff in X.
      * intros l Hl M. rewrite at_coerce. destruct (EV l Hl M) as (_ & _ & Y). rewrite Z1 in Y by auto. destruct (Y CZ) as [_ ->]. now apply R2.
      * intros l Hl M. eapply frame_trans; [now apply F1|]. apply frame_weaken. now apply F2.
  - pose proof (defined_all_kind _ _ _ K1) as DA. destruct K1 as (g & -> & Hg).
    cbn [geval]. rewrite E1, DA. cbn [negb]. cbv zeta.
    set (vt := V g) in *. set (mask1 := fun l => mask l && holds vt l). set (mask2 := fun l => mask l && negb (holds vt l)).
    assert (HH : forall l, (l < W)%nat -> mask l = true -> holds vt l = c_true (fst (res t (q l)))).
    { intros l Hl M. unfold holds. destruct (R1 l Hl M) as [_ ->]. reflexivity. }
    assert (M1 : forall l, mask1 l = true -> mask l = true /\ holds vt l = true).
    { intros l X. apply andb_true_iff in X. exact X. }
    assert (M2 : forall l, mask2 l = true -> mask l = true /\ holds vt l = false).
    { intros l X. apply andb_true_iff in X as [X Y]. apply negb_true_iff in Y. auto. }
    destruct (arm a mask1 s1 (fun l => snd (res t (q l))) IHa Ta Sa NP1) as (va & s2 & Ea & NP2 & Ka & Ra & Fa).
    { intros l Hl X. destruct (M1 l X) as [M HT]. split; [now apply R1|]. apply EV; auto. now rewrite <- HH. }
    rewrite Ea.
    destruct (arm b mask2 s2 (fun l => snd (res t (q l))) IHb Tb Sb NP2) as (vb & s3 & Eb & NP3 & Kb & Rb & Fb).
    { intros l Hl X. destruct (M2 l X) as [M HT]. split.
      - eapply sim_frame; [now apply R1|]. apply Fa; auto. unfold mask1. now rewrite HT, andb_false_r.
      - apply EV; auto. now rewrite <- HH. }
    rewrite Eb. do 2 eexists. split; [reflexivity|]. split; [exact NP3|]. split; [|split].
    + cbn [uni]. rewrite UT. cbn [andb]. apply kind_V. intros l Hl. destruct (holds vt l); auto.
    + intros l Hl M. cbn [at_lane]. destruct (EV l Hl M) as (_ & Y & N). specialize (HH l Hl M).
      destruct (holds vt l) eqn:HT.
      * destruct (Y (eq_sym HH)) as [_ ->]. assert (X : mask1 l = true) by (unfold mask1; now rewrite M, HT).
        destruct (Ra l Hl X) as [S2 A2]. split; [|exact A2]. eapply sim_frame; [exact S2|]. apply Fb; auto.
        unfold mask2. now rewrite HT, andb_false_r.
      * destruct (N (eq_sym HH)) as [_ ->]. assert (X : mask2 l = true) by (unfold mask2; now rewrite M, HT).
        now apply Rb.
    + intros l Hl M. eapply frame_trans; [now apply F1|]. apply frame_weaken. eapply frame_trans; [apply Fa|apply Fb]; auto;
      unfold mask1, mask2; now rewrite M.
Qed.

Theorem G_all : forall e, G e.
Proof.
  induction e.
  - apply G_num. - apply G_uvar. - apply G_var.
  - apply (G_bin cx Add (add32 false) (fun a b => wrap32 (a + b))); auto; intros; cbn [geval]; now rewrite ?Hwrap.
  - apply (G_bin cx Lt lt32 (fun a b => c_bool (a <? b))); auto.
  - apply G_incr.
  - now apply G_assign.
  - now apply G_div_assign.
  - now apply G_div.
  - now apply G_load.
  - now apply G_call.
  - exact (G_logical true e1 e2 IHe1 IHe2).
  - exact (G_logical false e1 e2 IHe1 IHe2).
  - now apply G_sel.
Qed.
End Eval.
