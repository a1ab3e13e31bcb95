(** Proofs about vector index expressions: evaluation, chains of
    insertelement, equality of values. *)

From Coq Require Import ZArith List Bool Lia.
From Verif Require Import Bits AddrModel AddrSpec.
Import ListNotations.
Open Scope Z_scope.

Lemma well_width n T v e : well n T v e -> 0 < width e.
Proof.
  revert v. induction e; intros v H; cbn [well width] in *; try tauto.
  - destruct H as (_ & _ & H & _). eauto.
  - destruct H as (_ & H & _). eauto.
Qed.

Lemma eval_range n T v r e lane : well n T v e -> in_u (width e) (eval r e lane).
Proof.
  revert v lane. induction e; intros v lane H; cbn [well width eval] in *.
  - destruct H as [_ H]. split; [lia|apply pow2_pos; lia].
  - apply wrapu_range; lia.
  - apply wrapu_range; lia.
  - apply wrapu_range; lia.
  - apply wrapu_range; lia.
  - apply wrapu_range; lia.
  - apply wrapu_range; lia.
  - destruct H as (_ & _ & H1 & H2 & H3).
    destruct (Nat.eqb lane i); [rewrite <- H3|]; eauto.
  - destruct H as (_ & H & _). eauto.
  - destruct (e_phi r n0); [apply wrapu_range; lia|].
    split; [lia|apply pow2_pos; lia].
  - apply wrapu_range; lia.
Qed.

Lemma scalar_eval n T r e : well n T false e -> forall i j, eval r e i = eval r e j.
Proof.
  induction e; intros H i' j'; cbn [well eval] in *; try (destruct H as [H _]; discriminate).
  - reflexivity.
  - destruct H as (_ & H1 & H2 & _). rewrite (IHe1 H1 i' j'), (IHe2 H2 i' j'). reflexivity.
  - destruct H as (_ & H1 & _). rewrite (IHe H1 i' j'). reflexivity.
  - destruct H as [-> _]. reflexivity.
  - destruct H as [-> _]. reflexivity.
Qed.

Lemma list_eqb_eq {A} (eqb : A -> A -> bool) (H : forall x y, eqb x y = true -> x = y) :
  forall a b, list_eqb eqb a b = true -> a = b.
Proof.
  induction a as [|x a IH]; intros [|y b]; cbn; try discriminate; try reflexivity.
  intro E. apply andb_true_iff in E. destruct E as [E1 E2].
  rewrite (H _ _ E1), (IH _ E2). reflexivity.
Qed.

Lemma values_equal_castless a b :
  values_equal a b = true -> castless a -> castless b.
Proof.
  revert b. induction a; intros [] E C; cbn [values_equal castless] in *; try discriminate; auto.
  apply andb_true_iff in E. destruct E as [E E2]. apply andb_true_iff in E. destruct E as [E0 E1].
  destruct C. auto.
Qed.

Lemma values_equal_width n T a b :
  well n T false a -> well n T false b -> castless a ->
  values_equal a b = true -> width a = width b.
Proof.
  revert b. induction a; intros b Wa Wb C E; destruct b; cbn [values_equal well castless width] in *;
    try discriminate; try tauto; try (destruct Wa; discriminate).
  - apply andb_true_iff in E. destruct E as [E _]. apply Z.eqb_eq in E. exact E.
  - apply andb_true_iff in E. destruct E as [E E2]. apply andb_true_iff in E. destruct E as [E0 E1].
    destruct Wa as (_ & W1 & W2 & L1 & L2), Wb as (_ & V1 & V2 & M1 & M2), C as [C1 C2].
    rewrite <- L1, <- M1. apply IHa1; assumption.
  - apply andb_true_iff in E. destruct E as [E _]. apply andb_true_iff in E. destruct E as [_ E].
    apply Z.eqb_eq in E. exact E.
  - apply andb_true_iff in E. destruct E as [E _]. apply andb_true_iff in E. destruct E as [_ E].
    apply Z.eqb_eq in E. exact E.
Qed.

Lemma bop_eqb_val r o o' w x y : bop_eqb o o' = true -> bop_val r o w x y = bop_val r o' w x y.
Proof.
  destruct o, o'; cbn [bop_eqb]; try discriminate; try reflexivity.
  intro E. apply Nat.eqb_eq in E. subst. reflexivity.
Qed.

Lemma cast_eqb_eq c c' : cast_eqb c c' = true -> c = c'.
Proof.
  destruct c, c'; cbn [cast_eqb]; try discriminate; try reflexivity.
  intro E. apply Nat.eqb_eq in E. subst. reflexivity.
Qed.

Lemma values_equal_eval n T r a b :
  well n T false a -> well n T false b -> width a = width b -> flat a ->
  values_equal a b = true -> forall i, eval r a i = eval r b i.
Proof.
  revert b. induction a; intros b Wa Wb W F E i'; destruct b; cbn [values_equal well flat width] in *;
    try discriminate; try tauto; try (destruct Wa; discriminate).
  - apply andb_true_iff in E. destruct E as [_ E]. apply Z.eqb_eq in E. subst. reflexivity.
  - apply andb_true_iff in E. destruct E as [E E2]. apply andb_true_iff in E. destruct E as [E0 E1].
    destruct Wa as (_ & W1 & W2 & L1 & L2), Wb as (_ & V1 & V2 & M1 & M2), F as [C1 C2].
    cbn [eval]. rewrite (bop_eqb_val _ _ _ _ _ _ E0), W.
    rewrite (IHa1 b1), (IHa2 b2); auto; congruence.
  - apply andb_true_iff in E. destruct E as [E0 E1]. apply cast_eqb_eq in E0. subst c0 w0.
    destruct Wa as (_ & W1 & _), Wb as (_ & V1 & _).
    pose proof (values_equal_width n T a b W1 V1 F E1) as L.
    cbn [eval]. rewrite L.
    rewrite (IHa b); auto.
    clear -F. induction a; cbn in *; tauto.
  - apply andb_true_iff in E. destruct E as [E E2]. apply andb_true_iff in E. destruct E as [E0 E1].
    apply eqb_prop in E0. apply Nat.eqb_eq in E2. subst. reflexivity.
  - apply andb_true_iff in E. destruct E as [E E2]. apply andb_true_iff in E. destruct E as [E E1].
    apply andb_true_iff in E. destruct E as [E0 E3].
    apply eqb_prop in E0. apply Nat.eqb_eq in E2. subst. reflexivity.
Qed.

(** ** Chains of insertelement *)

Lemma celt_exp_eval r w c j : eval r (celt_exp w c) j = celt_val r w c j.
Proof.
  destruct c; cbn [celt_exp eval celt_val]; unfold celt_val, bop_val;
    rewrite ?wrapu_wrapu; try reflexivity.
  f_equal. lia.
Qed.

Lemma celt_exp_well n T w c : 0 < w -> c = EUndef \/ well n T false (celt_exp w c).
Proof. intro H. destruct c; cbn; auto 10. Qed.

Lemma celt_exp_width w c : width (celt_exp w c) = w.
Proof. destruct c; reflexivity. Qed.

Lemma celt_exp_flat w c : flat (celt_exp w c).
Proof. destruct c; cbn; auto. Qed.

Lemma celt_exp_defined r w c : defined r (celt_exp w c).
Proof. destruct c; cbn; auto. Qed.

Lemma set_nth_length {A} (l : list A) i x : length (set_nth l i x) = length l.
Proof. revert i. induction l; intros [|i]; cbn; auto. Qed.

Lemma set_nth_same {A} (l : list A) i x d : (i < length l)%nat -> nth i (set_nth l i x) d = x.
Proof.
  revert i. induction l; intros [|i] H; cbn in *; try lia; auto.
  apply IHl. lia.
Qed.

Lemma set_nth_other {A} (l : list A) i j x d : j <> i -> nth j (set_nth l i x) d = nth j l d.
Proof.
  revert i j. induction l; intros [|i] [|j] H; cbn; try reflexivity; try lia.
  apply IHl. lia.
Qed.

(** An element of a chain: a scalar of the right width, or undef from a
    constant at the end of the chain. *)
Definition element (n : nat) (T : nat -> bool * Z) (w : Z) (y : exp) : Prop :=
  (well n T false y /\ flat y /\ width y = w) \/ y = Undef w.

Lemma nth_combine_map {A B C} (f : A * B -> C) (a : list A) (b : list B) i da db dc :
  length a = length b -> (i < length a)%nat ->
  nth i (map f (combine a b)) dc = f (nth i a da, nth i b db).
Proof.
  revert b i. induction a as [|x a IH]; intros [|y b] i L H; cbn in *; try lia.
  destruct i; [reflexivity|]. apply IH; lia.
Qed.

Section Chain.

Variables (n : nat) (T : nat -> bool * Z) (Q : exp -> Prop).
Hypothesis Q_celt : forall w c, every Q false (celt_exp w c).

Lemma chain_spec e els els' :
  well n T true e -> flat_chain e -> every Q true e -> length els = n ->
  chain e els = Some els' ->
  length els' = n /\
  (forall j x, nth j els None = Some x -> nth j els' None = Some x) /\
  (forall j, (j < n)%nat -> nth j els None = None -> covers e j ->
     exists y, nth j els' None = Some y /\ (forall r, eval r e j = eval r y j) /\
               element n T (width e) y /\ every Q false y /\
               (forall r, defined r e -> defined r y)) /\
  (forall j y, nth j els' None = Some y -> nth j els None = None ->
     (j < n)%nat -> covers e j) /\
  (forall a s i, e = Insert a s i -> nth i els None = None -> nth i els' None = Some s).
Proof.
  revert els. induction e; intros els W F V L E; cbn [chain] in E; try discriminate.
  cbn [well] in W. destruct W as (_ & Hi & W1 & W2 & W3).
  cbn [flat_chain] in F. destruct F as [Fs Fc].
  cbn [every] in V. destruct V as [_ [Va Vs]].
  set (els1 := match nth i els None with None => set_nth els i (Some e2) | Some _ => els end) in *.
  assert (L1 : length els1 = n).
  { unfold els1. destruct (nth i els None); [exact L|]. rewrite set_nth_length. exact L. }
  assert (K1 : forall j x, nth j els None = Some x -> nth j els1 None = Some x).
  { intros j x X. unfold els1. destruct (nth i els None) eqn:N; [exact X|].
    rewrite set_nth_other; [exact X|]. intro D. subst j. congruence. }
  assert (K2 : nth i els None = None -> nth i els1 None = Some e2).
  { intro N. unfold els1. rewrite N. apply set_nth_same. lia. }
  assert (K3 : forall j, j <> i -> nth j els1 None = nth j els None).
  { intros j D. unfold els1. destruct (nth i els None); [reflexivity|].
    apply set_nth_other; exact D. }
  assert (El : element n T (width e1) e2).
  { left. split; [exact W2|]. split; [exact Fs|exact W3]. }
  (* the part of the proof that all endings share *)
  assert (Main :
    (length els' = n /\
     (forall j x, nth j els1 None = Some x -> nth j els' None = Some x) /\
     (forall j, (j < n)%nat -> nth j els1 None = None -> covers e1 j ->
        exists y, nth j els' None = Some y /\ (forall r, eval r e1 j = eval r y j) /\
                  element n T (width e1) y /\ every Q false y /\
                  (forall r, defined r e1 -> defined r y)) /\
     (forall j y, nth j els' None = Some y -> nth j els1 None = None ->
        (j < n)%nat -> covers e1 j)) ->
    length els' = n /\
    (forall j x, nth j els None = Some x -> nth j els' None = Some x) /\
    (forall j, (j < n)%nat -> nth j els None = None -> covers (Insert e1 e2 i) j ->
       exists y, nth j els' None = Some y /\ (forall r, eval r (Insert e1 e2 i) j = eval r y j) /\
                 element n T (width (Insert e1 e2 i)) y /\ every Q false y /\
                 (forall r, defined r (Insert e1 e2 i) -> defined r y)) /\
    (forall j y, nth j els' None = Some y -> nth j els None = None ->
       (j < n)%nat -> covers (Insert e1 e2 i) j) /\
    (forall a s i0, Insert e1 e2 i = Insert a s i0 ->
       nth i0 els None = None -> nth i0 els' None = Some s)).
  { intros (A1 & A2 & A3 & A4). split; [exact A1|]. split; [intros j x X; apply A2, K1, X|].
    split; [|split].
    - intros j Hj N C. cbn [covers] in C.
      destruct (Nat.eq_dec j i) as [->|D].
      + exists e2. split; [apply A2, K2, N|]. split.
        { intro r. cbn [eval]. rewrite Nat.eqb_refl. reflexivity. }
        split; [exact El|]. split; [exact Vs|]. intros r [_ X]. exact X.
      + destruct C as [C|C]; [congruence|].
        destruct (A3 j Hj) as (y & Y1 & Y2 & Y3 & Y4 & Y5); [rewrite K3; assumption|exact C|].
        exists y. split; [exact Y1|]. split.
        { intro r. cbn [eval]. apply Nat.eqb_neq in D. rewrite D. apply Y2. }
        split; [exact Y3|]. split; [exact Y4|]. intros r [X _]. apply Y5, X.
    - intros j y Y N Hj. cbn [covers]. destruct (Nat.eq_dec j i) as [->|D]; [left; reflexivity|].
      right. eapply A4; [exact Y|rewrite K3; assumption|exact Hj].
    - intros a s i0 X N. injection X as -> -> ->. apply A2, K2, N. }
  destruct e1; try discriminate.
  - (* CVec *)
    apply Main. injection E as <-. cbn [well] in W1. destruct W1 as (_ & Hw & Ll).
    assert (LL : length (combine els1 l) = n) by (rewrite combine_length; lia).
    split; [rewrite map_length; exact LL|].
    assert (G : forall j, (j < n)%nat ->
      nth j (map (fun p => match fst p with Some x => Some x | None => Some (celt_exp w (snd p)) end)
                 (combine els1 l)) None =
      match nth j els1 None with Some x => Some x | None => Some (celt_exp w (nth j l EUndef)) end).
    { intros j Hj. rewrite (nth_combine_map _ els1 l j None EUndef None); [|lia|lia]. reflexivity. }
    split; [|split].
    + intros j x X. assert (Hj : (j < n)%nat).
      { destruct (Nat.lt_ge_cases j n) as [H|H]; [exact H|].
        rewrite nth_overflow in X by lia. discriminate. }
      rewrite (G j Hj), X. reflexivity.
    + intros j Hj N _. rewrite (G j Hj), N. eexists. split; [reflexivity|].
      split. { intro r. cbn [eval]. symmetry. apply celt_exp_eval. }
      split. { unfold element. destruct (celt_exp_well n T w (nth j l EUndef) Hw) as [X|X].
               - right. rewrite X. reflexivity.
               - left. split; [exact X|]. split; [apply celt_exp_flat|apply celt_exp_width]. }
      split; [apply Q_celt|]. intros r _. apply celt_exp_defined.
    + intros j y _ _ _. exact Logic.I.
  - (* Undef *)
    apply Main. injection E as <-. split; [exact L1|]. split; [auto|].
    split; [intros j Hj N C; destruct C|].
    intros j y Y N _. congruence.
  - (* Insert *)
    apply Main.
    destruct (IHe1 els1 W1 Fc Va L1 E) as (A1 & A2 & A3 & A4 & A5). auto.
Qed.

Lemma last_some_in {A} (l : list (option A)) x :
  last_some l = Some x -> exists j, (j < length l)%nat /\ nth j l None = Some x.
Proof.
  induction l as [|o l IH]; cbn; [discriminate|].
  destruct (last_some l) as [y|] eqn:E.
  - intro H. injection H as ->. destruct (IH eq_refl) as (j & Hj & X).
    exists (S j). split; [lia|exact X].
  - intro H. exists 0%nat. split; [lia|exact H].
Qed.

Lemma flatten_sound und e x :
  well n T true e -> every Q false e ->
  match e with Insert _ _ _ => (forall j, (j < n)%nat -> covers e j) /\ flat_chain e | _ => True end ->
  flatten n und false e = Some x ->
  well n T false x /\ width x = width e /\ every Q false x /\
  (forall r j, (j < n)%nat -> eval r e j = eval r x j) /\
  (forall r, defined r e -> defined r x).
Proof.
  intros W V C E. destruct e; cbn [flatten] in E; try discriminate.
  - (* Insert *)
    destruct C as [C F].
    set (e := Insert e1 e2 i) in *.
    destruct (chain e (repeat None n)) as [els|] eqn:K; [|discriminate].
    destruct (last_some els) as [x'|] eqn:LS; [|discriminate].
    destruct (negb und && negb (forallb is_some els)); [discriminate|].
    match type of E with (if ?b then _ else _) = _ => destruct b eqn:A; [|discriminate] end.
    injection E as ->.
    assert (Ve : every Q true e).
    { unfold e in *. cbn [every] in *. destruct V as [_ V]. split; [discriminate|exact V]. }
    destruct (chain_spec e (repeat None n) els W F Ve (repeat_length _ _) K)
      as (L & _ & B & _ & D).
    assert (N : forall j, nth j (repeat (None : option exp) n) None = None).
    { intro j. destruct (Nat.lt_ge_cases j n).
      - apply nth_repeat.
      - apply nth_overflow. rewrite repeat_length. lia. }
    rewrite forallb_forall in A.
    assert (Xi : nth i els None = Some e2) by (apply (D e1 e2 i eq_refl), N).
    assert (Wc := W). unfold e in Wc. cbn [well] in Wc. destruct Wc as (_ & Hi & W1 & W2 & W3).
    assert (Ex : values_equal x e2 = true).
    { assert (I : In (Some e2) els). { rewrite <- Xi. apply nth_In. lia. }
      specialize (A _ I). exact A. }
    assert (NU : x <> Undef (width e)).
    { intro U. rewrite U in Ex. destruct e2; cbn in Ex; try discriminate.
      cbn [well] in W2. destruct W2; discriminate. }
    destruct (last_some_in els x LS) as (jx & Hjx & Njx).
    assert (Jx : (jx < n)%nat) by lia.
    destruct (B jx Jx (N jx) (C jx Jx)) as (y & Y1 & Y2 & Y3 & Y4 & Y5).
    rewrite Njx in Y1. injection Y1 as <-.
    destruct Y3 as [(Wx & Fx & Lx)|U]; [|congruence].
    split; [exact Wx|]. split; [exact Lx|]. split; [exact Y4|]. split; [|exact Y5].
    intros r j Hj.
    destruct (B j Hj (N j) (C j Hj)) as (z & Z1 & Z2 & Z3 & _ & _).
    assert (Ez : values_equal x z = true).
    { assert (I : In (Some z) els). { rewrite <- Z1. apply nth_In. lia. }
      specialize (A _ I). exact A. }
    destruct Z3 as [(Wz & Fz & Lz)|U].
    + rewrite Z2. symmetry. apply (values_equal_eval n T r x z); auto. congruence.
    + exfalso. subst z. destruct x; cbn in Ez; try discriminate.
      cbn [well] in Wx. destruct Wx; discriminate.
  - (* Shuf *)
    destruct (zero_mask m) eqn:Zm; [|discriminate].
    cbn [well] in W. destruct W as (_ & W & Lm & Fm).
    assert (M : forall j, (j < n)%nat -> nth j m 0%nat = 0%nat).
    { intros j Hj. unfold zero_mask in Zm. rewrite forallb_forall in Zm.
      assert (I : In (nth j m 0%nat) m) by (apply nth_In; lia).
      specialize (Zm _ I). apply Nat.eqb_eq in Zm. auto. }
    assert (G : exists w, e = Insert (Undef w) x 0).
    { destruct e; try discriminate.
      destruct e1; try discriminate. destruct i; [|discriminate].
      injection E as ->. eauto. }
    destruct G as [w ->]. cbn [well] in W. destruct W as (_ & Hi & W1 & W2 & W3).
    split; [exact W2|]. split; [exact W3|]. split.
    + cbn [every] in V. apply V.
    + split.
      * intros r j Hj. cbn [eval]. rewrite (M j Hj). cbn [Nat.eqb].
        apply (scalar_eval n T r x W2).
      * intros r X. cbn [defined] in X. apply X.
Qed.

End Chain.
