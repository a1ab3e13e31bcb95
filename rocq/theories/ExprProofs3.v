From Coq Require Import ZArith List Bool Lia.
From Verif Require Import Bits LanesModel LanesSpec NumModel ExprModel ExprSpec ExprProofs ExprProofs2.
Import ListNotations.
Local Open Scope Z_scope.

Lemma G_use cx mask e s (q : nat -> lstate) (r : nat -> Z * lstate) :
  cx_nsw cx = false -> tame cx false e = true ->
  (on (cx_width cx) mask = true \/ (safe_all_off (length (cx_array cx)) e = true /\ divs e = false)) ->
  (forall l x, (l < cx_width cx)%nat -> g_env s l x <> None) ->
  (forall l, (l < cx_width cx)%nat -> mask l = true ->
     lane_is s l (q l) /\ ceval false (cx_uvar cx) (cx_array cx) (cx_fn cx) e (q l) = Some (r l)) ->
  evaluates_as_instances cx mask e s r.
Proof.
  intros Hn T On NP H. destruct (G_all cx Hn e false mask s q T On NP) as (v & s' & E & _ & _ & R & F).
  - intros l Hl M. destruct (H l Hl M) as [A ->]. split; [exact A|discriminate].
  - exists v, s'. split; [exact E|]. intros l Hl. split; intros M.
    + destruct (R l Hl M) as [A B]. destruct (H l Hl M) as [_ C]. rewrite (res_some _ _ _ _ C) in A, B. auto.
    + destruct (F l Hl M) as [A B]. split; auto.
Qed.

Definition wrapping (cx : ctx) : ctx :=
  Ctx (cx_width cx) false (cx_xe cx) (cx_uvar cx) (cx_array cx) (cx_fn cx) (cx_outer cx) (cx_junk cx).

Lemma short_circuit_wrapping cx e : short_circuit (wrapping cx) e = short_circuit cx e.
Proof. reflexivity. Qed.

Lemma geval_no_adds cx : forall e, adds e = false -> forall mask s, geval cx mask e s = geval (wrapping cx) mask e s.
Proof.
  induction e; intros A mask s; cbn [adds] in A; try discriminate;
    repeat match goal with H : _ || _ = false |- _ => apply orb_false_iff in H as [? ?] end;
    cbn [geval]; cbv zeta; rewrite ?short_circuit_wrapping; change (cx_width (wrapping cx)) with (cx_width cx); try reflexivity.
  - rewrite <- IHe1 by assumption. destruct (geval cx mask e1 s) as [[va s1]|]; [|reflexivity].
    now rewrite <- IHe2.
  - rewrite <- IHe by assumption. reflexivity.
  - rewrite <- IHe by assumption. reflexivity.
  - rewrite <- IHe1 by assumption. destruct (geval cx mask e1 s) as [[va s1]|]; [|reflexivity].
    now rewrite <- IHe2.
  - rewrite <- IHe by assumption. reflexivity.
  - rewrite <- IHe by assumption. reflexivity.
  - rewrite <- IHe1 by assumption. destruct (geval cx mask e1 s) as [[va s1]|]; [|reflexivity].
    rewrite <- IHe2 by assumption. destruct (as_bool va) as [z|g]; destruct (short_circuit cx e2); cbn [negb]; try reflexivity.
    destruct (defined_all _ _); [cbn [negb]|reflexivity]. destruct (forallb _ _); [reflexivity|].
    now rewrite <- IHe2.
  - rewrite <- IHe1 by assumption. destruct (geval cx mask e1 s) as [[va s1]|]; [|reflexivity].
    rewrite <- IHe2 by assumption. destruct (as_bool va) as [z|g]; destruct (short_circuit cx e2); cbn [negb]; try reflexivity.
    destruct (defined_all _ _); [cbn [negb]|reflexivity]. destruct (forallb _ _); [reflexivity|].
    now rewrite <- IHe2.
  - rewrite <- IHe1 by assumption. destruct (geval cx mask e1 s) as [[[[z|]|g] s1]|]; try reflexivity.
    + now rewrite <- IHe2, <- IHe3.
    + destruct (defined_all _ _); [cbn [negb]|reflexivity]. rewrite <- IHe2 by assumption.
      destruct (if short_circuit cx e2 && negb _ then _ else _) as [[v1 s2]|]; [|reflexivity]. now rewrite <- IHe3.
Qed.

Lemma ceval_no_adds nsw uv ar fn : forall e, adds e = false -> forall q, ceval nsw uv ar fn e q = ceval false uv ar fn e q.
Proof.
  induction e; intros A q; cbn [adds] in A; try discriminate;
    repeat match goal with H : _ || _ = false |- _ => apply orb_false_iff in H as [? ?] end; cbn [ceval]; try reflexivity;
    try (rewrite IHe by assumption; reflexivity);
    try (rewrite IHe1 by assumption; destruct (ceval _ _ _ _ e1 q) as [[x q']|]; [|reflexivity];
         rewrite ?IHe2, ?IHe3 by assumption; reflexivity).
Qed.

Lemma G_use_nsw cx mask e s (q : nat -> lstate) (r : nat -> Z * lstate) :
  adds e = false -> tame cx false e = true ->
  (on (cx_width cx) mask = true \/ (safe_all_off (length (cx_array cx)) e = true /\ divs e = false)) ->
  (forall l x, (l < cx_width cx)%nat -> g_env s l x <> None) ->
  (forall l, (l < cx_width cx)%nat -> mask l = true ->
     lane_is s l (q l) /\ ceval true (cx_uvar cx) (cx_array cx) (cx_fn cx) e (q l) = Some (r l)) ->
  evaluates_as_instances cx mask e s r.
Proof.
  intros A T On NP H. destruct (G_use (wrapping cx) mask e s q r) as (v & s' & E & R); auto.
  - clear - T. assert (X : forall e c, tame (wrapping cx) c e = tame cx c e).
    { induction e0; intros c; cbn [tame]; rewrite ?short_circuit_wrapping, ?IHe0, ?IHe0_1, ?IHe0_2, ?IHe0_3; reflexivity. }
    now rewrite X.
  - intros l Hl M. destruct (H l Hl M) as [B C]. split; [exact B|]. rewrite ceval_no_adds in C by assumption. exact C.
  - exists v, s'. rewrite geval_no_adds by assumption. auto.
Qed.

Lemma on_some W mask : (exists l, (l < W)%nat /\ mask l = true) -> on W mask = true.
Proof. intros (l & Hl & M). apply existsb_exists. exists l. split; [apply in_seq; lia|exact M]. Qed.
