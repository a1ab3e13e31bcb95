From Coq Require Import ZArith NArith Bool Ascii String DecimalString DecimalN Decimal Lia Permutation List.
From Verif Require Import TypesModel TypesSpec TypesProofs.
Import ListNotations.

(** ** Symbols *)

Section Symbols.
Variable en : nat -> name.
Local Notation mg := (mangle en).

Lemma all_legal_Forall l : all_legal en l <-> Forall (legal en) l.
Proof. induction l; cbn; split; auto; intros H; [constructor; tauto|inversion H; subst; tauto]. Qed.
Lemma all_alike_Forall2 l m : all_alike en l m <-> Forall2 (alike en) l m.
Proof.
  revert m. induction l as [|x l IH]; intros [|y m]; cbn; split; auto; intros H; try contradiction; try (now inversion H).
  - constructor; [tauto|]. now apply IH.
  - inversion H; subst. split; [auto|]. now apply IH.
Qed.

Lemma sd_first z : exists c r, signed_digits z = c :: r /\ (is_digit c \/ c = "-"%char).
Proof.
  unfold signed_digits. destruct (Z.ltb z 0); cbn; [eauto|].
  pose proof (digits_digits (Z.abs_N z)) as D. pose proof (digits_nonempty (Z.abs_N z)) as N.
  destruct (digits (Z.abs_N z)) as [|c r]; [congruence|]. inversion D; subst. eauto.
Qed.

(* ends of lists of template arguments *)
Definition ends2 (r : name) : Prop := ends r /\ forall c x, r = c :: x -> ~ is_digit c /\ c <> "-"%char.

Lemma sd_inj z1 z2 x y : (forall c r, x = c :: r -> ~ is_digit c) -> (forall c r, y = c :: r -> ~ is_digit c) ->
  signed_digits z1 ++ x = signed_digits z2 ++ y -> z1 = z2 /\ x = y.
Proof.
  intros Hx Hy E. unfold signed_digits in E.
  assert (M : forall n a b, "-"%char :: a <> digits n ++ b).
  { intros n a b Q. pose proof (digits_digits n) as D. pose proof (digits_nonempty n) as NE.
    destruct (digits n) as [|c r]; [congruence|]. inversion D; subst. injection Q as <- _.
    revert H1. now apply not_digit. }
  destruct (Z.ltb_spec z1 0), (Z.ltb_spec z2 0); cbn [lit list_ascii_of_string app] in E.
  - injection E as E. apply run_inj in E; auto using digits_digits. destruct E as [E ->]. apply digits_inj in E. split; [lia|reflexivity].
  - now apply M in E.
  - symmetry in E. now apply M in E.
  - apply run_inj in E; auto using digits_digits. destruct E as [E ->]. apply digits_inj in E. split; [lia|reflexivity].
Qed.

Lemma letter_not c : In c (lit "CuvsR") -> ~ is_digit c /\ c <> "-"%char.
Proof.
  cbn. intros H. decompose [or] H; subst; try contradiction; (split; [now apply not_digit|discriminate]).
Qed.

Lemma not_digit_stop c r : is_digit c \/ c = "-"%char -> stop (c :: r).
Proof.
  intros [D| ->]; [|split; reflexivity]. unfold is_digit in D. cbn in D. decompose [or] D; subst; try contradiction; split; reflexivity.
Qed.

Lemma targs_inj l1 : forall l2 r1 r2, Forall (legal en) (map targ_type l1) -> Forall (legal en) (map targ_type l2) ->
  ends2 r1 -> ends2 r2 ->
  flat_map (mangle_targ en) l1 ++ r1 = flat_map (mangle_targ en) l2 ++ r2 -> Forall2 (targ_alike en) l1 l2 /\ r1 = r2.
Proof.
  assert (FL : forall a r, legal en (targ_type a) -> exists c y, mangle_targ en a ++ r = c :: y /\ In c (lit "CuvsR")).
  { intros a r L. destruct (starts_letter en _ L) as (c & y & Ec & I). destruct a; cbn [mangle_targ targ_type] in *; rewrite Ec; cbn; eauto. }
  (* what follows an item *)
  assert (TL : forall l r, Forall (legal en) (map targ_type l) -> ends2 r ->
            stop (flat_map (mangle_targ en) l ++ r) /\
            forall c x, flat_map (mangle_targ en) l ++ r = c :: x -> ~ is_digit c /\ c <> "-"%char).
  { intros [|a l] r L [[E1 E2] E3]; [split; auto|]. cbn [map flat_map] in *. inversion L; subst.
    rewrite <- app_assoc. destruct (FL a (flat_map (mangle_targ en) l ++ r) H1) as (c & y & -> & I).
    split; [now apply letter_stop|]. intros ? ? [= <- _]. now apply letter_not. }
  induction l1 as [|a l1 IH]; intros [|b l2] r1 r2 L1 L2 E1 E2 E; cbn [flat_map app map] in *.
  - auto.
  - exfalso. rewrite <- app_assoc in E. destruct (FL b (flat_map (mangle_targ en) l2 ++ r2) (Forall_inv L2)) as (c & y & Q & I).
    rewrite Q in E. destruct E1 as [[_ X] _]. exact (X _ _ E I).
  - exfalso. rewrite <- app_assoc in E. destruct (FL a (flat_map (mangle_targ en) l1 ++ r1) (Forall_inv L1)) as (c & y & Q & I).
    rewrite Q in E. symmetry in E. destruct E2 as [[_ X] _]. exact (X _ _ E I).
  - rewrite <- !app_assoc in E. inversion L1; inversion L2; subst.
    destruct (TL l1 r1 ltac:(assumption) E1) as [S1 D1]. destruct (TL l2 r2 ltac:(assumption) E2) as [S2 D2].
    set (x := flat_map (mangle_targ en) l1 ++ r1) in *. set (y := flat_map (mangle_targ en) l2 ++ r2) in *.
    assert (X : targ_alike en a b /\ x = y).
    { destruct a as [t|t z], b as [u|u w]; cbn [mangle_targ targ_type targ_alike] in *; rewrite <- ?app_assoc in E.
      - now apply (mangle_inj en _ t (Nat.lt_succ_diag_r _)) in E.
      - exfalso. destruct (sd_first w) as (c & r & Q & I). rewrite Q in E. apply (mangle_inj en _ t (Nat.lt_succ_diag_r _)) in E; auto.
        + destruct E as [_ E]. destruct (D1 _ _ E). tauto.
        + now apply not_digit_stop.
      - exfalso. destruct (sd_first z) as (c & r & Q & I). rewrite Q in E. apply (mangle_inj en _ t (Nat.lt_succ_diag_r _)) in E; auto.
        + destruct E as [_ E]. symmetry in E. destruct (D2 _ _ E). tauto.
        + now apply not_digit_stop.
      - apply (mangle_inj en _ t (Nat.lt_succ_diag_r _)) in E; auto.
        + destruct E as [A E]. apply sd_inj in E; [destruct E as [-> ->]; auto|..]; intros c r Q; [now apply (D1 c r)|now apply (D2 c r)].
        + destruct (sd_first z) as (c & r & -> & I). now apply not_digit_stop.
        + destruct (sd_first w) as (c & r & -> & I). now apply not_digit_stop. }
    destruct X as [A X]. subst x y. destruct (IH l2 r1 r2) as [B Q]; auto.
Qed.

Lemma ends_nil : ends [].
Proof. split; [split; reflexivity|discriminate]. Qed.

Definition unmasked_prefix (f : fflags) : name := if f_unmasked f then lit "UM_" else [].

(* the part after the first "___" *)
Lemma body_inj ps qs f g : Forall (legal en) ps -> Forall (legal en) qs ->
  unmasked_prefix f ++ flat_map mg ps = unmasked_prefix g ++ flat_map mg qs ->
  f_unmasked f = f_unmasked g /\ Forall2 (alike en) ps qs.
Proof.
  intros L1 L2 E.
  assert (B : forall l x, Forall (legal en) l -> lit "UM_" ++ x <> flat_map mg l).
  { intros [|t l] x L Q; [discriminate Q|]. inversion L; subst. destruct (starts_letter en t H1) as (c & y & Ec & I).
    cbn [flat_map] in Q. rewrite Ec in Q. injection Q as <- _. cbn in I. decompose [or] I; try discriminate; contradiction. }
  assert (C : flat_map mg ps = flat_map mg qs -> Forall2 (alike en) ps qs).
  { intros Q. rewrite <- (app_nil_r (flat_map mg ps)), <- (app_nil_r (flat_map mg qs)) in Q.
    apply params_inj in Q; auto using ends_nil; try (now apply all_legal_Forall). apply all_alike_Forall2. tauto. }
  unfold unmasked_prefix in E. destruct (f_unmasked f), (f_unmasked g).
  - apply app_inv_head in E. auto.
  - cbn [app] in E. now apply B in E.
  - symmetry in E. cbn [app] in E. now apply B in E.
  - auto.
Qed.

Lemma symbol_inj f ps qs r r' fl fl' isa : Forall (legal en) ps -> Forall (legal en) qs ->
  symbol en f None (Func r ps fl) isa = symbol en f None (Func r' qs fl') isa ->
  f_unmasked fl = f_unmasked fl' /\ Forall2 (alike en) ps qs.
Proof.
  intros L1 L2 E. unfold symbol in E. apply app_inv_head in E. cbn [app] in E. apply app_inv_tail in E.
  cbn [mangle] in E. apply app_inv_head in E. now apply body_inj in E.
Qed.

Lemma ends2_us x : ends2 (lit "___" ++ x).
Proof.
  split; [split; [split; reflexivity|]|].
  - intros c y [= <- _]. cbn. intuition discriminate.
  - intros c y [= <- _]. split; [now apply not_digit|discriminate].
Qed.

Lemma symbol_template_inj f l m ps qs r r' fl fl' isa :
  Forall (legal en) (map targ_type l) -> Forall (legal en) (map targ_type m) -> Forall (legal en) ps -> Forall (legal en) qs ->
  symbol en f (Some l) (Func r ps fl) isa = symbol en f (Some m) (Func r' qs fl') isa ->
  Forall2 (targ_alike en) l m /\ f_unmasked fl = f_unmasked fl' /\ Forall2 (alike en) ps qs.
Proof.
  intros T1 T2 L1 L2 E. unfold symbol in E. apply app_inv_head in E. rewrite !app_assoc in E. apply app_inv_tail in E.
  rewrite <- !app_assoc in E. apply app_inv_head in E. cbn [mangle] in E. apply targs_inj in E; auto using ends2_us.
  destruct E as [A E]. apply app_inv_head in E. apply body_inj in E; tauto.
Qed.

Lemma symbol_template_plain f l ps qs r r' fl fl' isa :
  Forall (legal en) (map targ_type l) -> Forall (legal en) ps -> Forall (legal en) qs ->
  symbol en f (Some l) (Func r ps fl) isa <> symbol en f None (Func r' qs fl') isa.
Proof.
  intros T1 L1 L2 E. unfold symbol in E. apply app_inv_head in E. rewrite !app_assoc in E. apply app_inv_tail in E.
  rewrite <- !app_assoc in E. cbn [mangle] in E. cbn [app] in E. apply app_inv_head in E.
  destruct (f_unmasked fl').
  - destruct l as [|a l]; [discriminate E|]. cbn [map flat_map] in *. inversion T1; subst.
    destruct (starts_letter en _ H1) as (c & y & Ec & I).
    assert (exists z, mangle_targ en a = c :: z) as [z Z] by (destruct a; cbn [mangle_targ targ_type] in *; rewrite Ec; cbn; eauto).
    rewrite Z in E. injection E as -> _. cbn in I. decompose [or] I; try discriminate; contradiction.
  - cbn [app] in E. replace (flat_map mg qs) with (flat_map (mangle_targ en) (map TType qs)) in E
      by (clear; induction qs; cbn; congruence).
    rewrite <- (app_nil_r (flat_map _ (map TType qs))) in E. apply targs_inj in E; auto using ends2_us.
    + destruct E as [_ E]. discriminate E.
    + clear - L2. rewrite map_map. cbn. now rewrite map_id.
    + split; [apply ends_nil|discriminate].
Qed.

Lemma ordinary_alike t : forall u, ordinary t -> ordinary u -> (forall i j, en i = en j -> i = j) -> alike en t u -> t = u.
Proof.
  induction t; intros u O1 O2 EI A; destruct u; cbn [alike] in A; try contradiction; cbn [ordinary] in *.
  - destruct A as (-> & -> & ->). reflexivity.
  - destruct A as (-> & -> & A). now rewrite (EI _ _ A).
  - destruct A as (-> & -> & -> & A). destruct O1 as (-> & -> & O1). destruct O2 as (-> & -> & O2). f_equal. auto.
  - destruct A as (-> & A). f_equal. auto.
  - destruct A as (-> & A). f_equal. auto.
  - destruct A as (-> & -> & ->). reflexivity.
  - destruct O1 as (-> & O1). destruct O2 as (-> & O2). f_equal. auto.
Qed.

Lemma ordinary_alike_list l : forall m, Forall ordinary l -> Forall ordinary m -> (forall i j, en i = en j -> i = j) ->
  Forall2 (alike en) l m -> l = m.
Proof.
  induction l; intros m O1 O2 EI A; inversion A; subst; auto. inversion O1; inversion O2; subst. f_equal; auto using ordinary_alike.
Qed.
End Symbols.

(** ** Equality *)

Section TyInd.
Variable P : ty -> Prop.
Hypothesis HA : forall v c b, P (Atomic v c b).
Hypothesis HE : forall v c i, P (Enum v c i).
Hypothesis HP : forall v c s f p b, P b -> P (Pointer v c s f p b).
Hypothesis HR : forall b n, P b -> P (Array b n).
Hypothesis HV : forall b n, P b -> P (Vector b n).
Hypothesis HS : forall v c s, P (Struct v c s).
Hypothesis HF : forall p b, P b -> P (Ref p b).
Hypothesis HFn : forall r ps f, P r -> Forall P ps -> P (Func r ps f).
Fixpoint ty_ind' (t : ty) : P t :=
  match t with
  | Atomic v c b => HA v c b
  | Enum v c i => HE v c i
  | Pointer v c s f p b => HP v c s f p b (ty_ind' b)
  | Array b n => HR b n (ty_ind' b)
  | Vector b n => HV b n (ty_ind' b)
  | Struct v c s => HS v c s
  | Ref p b => HF p b (ty_ind' b)
  | Func r ps f => HFn r ps f (ty_ind' r)
      ((fix go l : Forall P l := match l with [] => Forall_nil P | x :: l => Forall_cons x (ty_ind' x) (go l) end) ps)
  end.
End TyInd.

Definition equal_all (ic : bool) : list ty -> list ty -> bool :=
  fix all (l m : list ty) : bool :=
    match l, m with
    | [], [] => true
    | x :: l, y :: m => equal ic x y && all l m
    | _, _ => false
    end.

Lemma basic_eqb_eq a b : basic_eqb a b = true <-> a = b.
Proof. split; [destruct a, b; cbn; intros; congruence|intros ->; destruct b; reflexivity]. Qed.
Lemma var_eqb_eq a b : var_eqb a b = true <-> a = b.
Proof.
  destruct a, b; cbn; split; intros; try congruence.
  - apply N.eqb_eq in H. congruence.
  - injection H as ->. apply N.eqb_refl.
Qed.
Lemma name_eqb_eq a b : name_eqb a b = true <-> a = b.
Proof. unfold name_eqb. destruct (list_eq_dec ascii_dec a b); split; congruence. Qed.
Lemma flags_eqb_eq f g : flags_eqb f g = true <-> f = g.
Proof.
  unfold flags_eqb. split.
  - rewrite !andb_true_iff, !eqb_true_iff. destruct f, g; cbn. intros H. decompose [and] H. congruence.
  - intros ->. now rewrite !eqb_reflx.
Qed.

Lemma equal_refl ic t : equal ic t t = true.
Proof.
  induction t using ty_ind'; cbn [equal]; rewrite eqb_reflx, orb_true_r; cbn [andb]; rewrite ?eqb_reflx, ?Nat.eqb_refl, ?N.eqb_refl, ?IHt; cbn [andb];
    try reflexivity.
  - assert (basic_eqb b b = true) as -> by now apply basic_eqb_eq. now apply var_eqb_eq.
  - now apply var_eqb_eq.
  - assert (var_eqb v v = true) as -> by now apply var_eqb_eq. now apply name_eqb_eq.
  - assert (flags_eqb f f = true) as -> by now apply flags_eqb_eq. cbn.
    change (equal_all ic ps ps = true). induction H; cbn; auto. now rewrite H, IHForall.
Qed.

(* equality as a proposition *)
Lemma eqb_comm_true a b : Bool.eqb a b = true -> Bool.eqb b a = true.
Proof. now rewrite !eqb_true_iff. Qed.

Lemma equal_sym_true ic a : forall b, equal ic a b = true -> equal ic b a = true.
Proof.
  induction a using ty_ind'; intros t E; destruct t; cbn [equal] in E; rewrite ?andb_false_r in E; try discriminate E;
    apply andb_true_iff in E as [E1 E2];
    assert (C : forall x y, (ic || Bool.eqb x y = true) -> (ic || Bool.eqb y x = true)) by
      (intros x y Q; apply orb_true_iff in Q as [->|Q]; [reflexivity|apply eqb_comm_true in Q; now rewrite Q, orb_true_r]);
    cbn [equal]; apply andb_true_iff; (split; [now apply C|]); repeat rewrite andb_true_iff in *.
  - rewrite basic_eqb_eq, var_eqb_eq in *. intuition congruence.
  - rewrite Nat.eqb_eq, var_eqb_eq in *. intuition congruence.
  - rewrite !eqb_true_iff, !Nat.eqb_eq in *. decompose [and] E2. repeat split; try congruence. auto.
  - rewrite !N.eqb_eq in *. destruct E2. auto.
  - rewrite !N.eqb_eq in *. destruct E2. auto.
  - rewrite var_eqb_eq, name_eqb_eq in *. intuition congruence.
  - rewrite !Nat.eqb_eq in *. destruct E2. auto.
  - destruct E2 as [[E2 E3] E4]. rewrite flags_eqb_eq in *. split; [split; auto|].
    change (equal_all ic ps params = true) in E4. change (equal_all ic params ps = true).
    clear - H E4. revert params E4. induction H; intros [|y m] E4; cbn in *; try discriminate; auto.
    apply andb_true_iff in E4 as [A B]. apply andb_true_iff. auto.
Qed.

Lemma equal_trans_true ic a : forall b c, equal ic a b = true -> equal ic b c = true -> equal ic a c = true.
Proof.
  induction a using ty_ind'; intros t u E F; destruct t; cbn [equal] in E; rewrite ?andb_false_r in E; try discriminate E;
    destruct u; cbn [equal] in F; rewrite ?andb_false_r in F; try discriminate F;
    apply andb_true_iff in E as [E1 E2]; apply andb_true_iff in F as [F1 F2];
    assert (C : forall x y z, (ic || Bool.eqb x y = true) -> (ic || Bool.eqb y z = true) -> (ic || Bool.eqb x z = true)) by
      (intros x y z Q R; destruct ic; [reflexivity|]; cbn in *; rewrite eqb_true_iff in *; congruence);
    cbn [equal]; apply andb_true_iff; (split; [eapply C; eassumption|]); repeat rewrite andb_true_iff in *.
  - rewrite !basic_eqb_eq, !var_eqb_eq in *. intuition congruence.
  - rewrite !Nat.eqb_eq, !var_eqb_eq in *. intuition congruence.
  - rewrite !eqb_true_iff, !Nat.eqb_eq in *. decompose [and] E2. decompose [and] F2. repeat split; try congruence. eauto.
  - rewrite !N.eqb_eq in *. destruct E2, F2. split; [congruence|eauto].
  - rewrite !N.eqb_eq in *. destruct E2, F2. split; [congruence|eauto].
  - rewrite !var_eqb_eq, !name_eqb_eq in *. intuition congruence.
  - rewrite !Nat.eqb_eq in *. destruct E2, F2. split; [congruence|eauto].
  - destruct E2 as [[E2 E3] E4]. destruct F2 as [[F2 F3] F4]. rewrite flags_eqb_eq in *. split; [split; [eauto|congruence]|].
    change (equal_all ic ps params = true) in E4. change (equal_all ic params params0 = true) in F4. change (equal_all ic ps params0 = true).
    clear - H E4 F4. revert params params0 E4 F4. induction H; intros [|y m] [|z k] E4 F4; cbn in *; try discriminate; auto.
    apply andb_true_iff in E4 as [A B]. apply andb_true_iff in F4 as [A' B']. apply andb_true_iff. split; eauto.
Qed.

Lemma equal_mangle en a : forall b, equal false a b = true -> no_soa_pointer a -> no_soa_pointer b -> mangle en a = mangle en b.
Proof.
  induction a using ty_ind'; intros t E N1 N2; destruct t; cbn [equal] in E; rewrite ?andb_false_r in E; try discriminate E;
    apply andb_true_iff in E as [E1 E2]; cbn [orb] in E1; apply eqb_prop in E1; cbn [is_const] in E1;
    cbn [mangle]; cbn [no_soa_pointer] in N1, N2; repeat rewrite andb_true_iff in E2.
  - rewrite basic_eqb_eq, var_eqb_eq in E2. destruct E2; subst. reflexivity.
  - rewrite Nat.eqb_eq, var_eqb_eq in E2. destruct E2; subst. reflexivity.
  - rewrite !eqb_true_iff, !Nat.eqb_eq in E2. destruct E2 as [[[[V ->] ->] ->] B].
    rewrite (IHa _ B) by tauto. replace v0 with v; [reflexivity|]. destruct N1 as [[->| ->] _], N2 as [[->| ->] _]; auto; discriminate V.
  - rewrite N.eqb_eq in E2. destruct E2 as [-> B]. now rewrite (IHa _ B).
  - rewrite N.eqb_eq in E2. destruct E2 as [-> B]. now rewrite (IHa _ B).
  - rewrite var_eqb_eq, name_eqb_eq in E2. destruct E2; subst. reflexivity.
  - destruct E2 as [_ B]. now rewrite (IHa _ B).
  - destruct E2 as [[E2 E3] E4]. rewrite flags_eqb_eq in E3. subst. f_equal. f_equal.
    change (equal_all false ps params = true) in E4. destruct N1 as [_ N1], N2 as [_ N2].
    clear - H E4 N1 N2. revert params E4 N2. induction H; intros [|y m] E4 N2; cbn in *; try discriminate; auto.
    apply andb_true_iff in E4 as [A B]. rewrite (H y A) by tauto. now rewrite (IHForall (proj2 N1) m B) by tauto.
Qed.

Lemma equal_uniform ic a : forall b, equal ic a b = true -> is_uniform a = is_uniform b.
Proof.
  unfold is_uniform. induction a using ty_ind'; intros t E; destruct t; cbn [equal] in E; rewrite ?andb_false_r in E; try discriminate E;
    apply andb_true_iff in E as [_ E]; repeat rewrite andb_true_iff in E; cbn [var_of].
  - rewrite var_eqb_eq in E. now destruct E; subst.
  - rewrite var_eqb_eq in E. now destruct E; subst.
  - destruct E as [[[[V _] _] _] _]. now apply eqb_prop in V.
  - now apply IHa.
  - now apply IHa.
  - rewrite var_eqb_eq in E. now destruct E; subst.
  - now apply IHa.
  - reflexivity.
Qed.

(** ** Conversions *)

Lemma varying_not_uniform t : is_varying t = true -> is_uniform t = false.
Proof. unfold is_varying, is_uniform. destruct (var_of t); cbn; congruence. Qed.

Lemma conv_step_var rec from to :
  (forall a b, rec a b = true -> is_varying a = true -> is_array a && is_pointer b = false -> is_uniform b = false) ->
  conv_step rec from to = true -> is_varying from = true -> is_array (ref_target from) && is_pointer to = false -> is_uniform to = false.
Proof.
  intros IH C V NA. unfold conv_step in C.
  destruct (equal false to from) eqn:EQ; [rewrite (equal_uniform _ _ _ EQ); now apply varying_not_uniform|].
  destruct (is_void from); [discriminate|]. destruct (is_void to); [discriminate|].
  destruct (is_func from) eqn:FN; [destruct from; discriminate|].
  destruct (is_func to); [discriminate|].
  destruct (_ && _ && negb (N.eqb (soa_width to) (soa_width from))); [discriminate|].
  destruct (is_array from && is_pointer to) eqn:AP.
  { destruct from; try discriminate AP. cbn [ref_target] in NA. congruence. }
  destruct (is_uniform to); [rewrite V in C; discriminate C|reflexivity].
Qed.

Lemma can_convert_var from to : can_convert from to = true -> is_varying from = true ->
  is_array (ref_target from) && is_pointer to = false -> is_uniform to = false.
Proof.
  intros C V NA. unfold can_convert in C. unfold conv_step at 1 in C.
  destruct (equal false to from) eqn:EQ; [rewrite (equal_uniform _ _ _ EQ); now apply varying_not_uniform|].
  destruct (is_void from); [discriminate|]. destruct (is_void to); [discriminate|].
  destruct (is_func from) eqn:FN; [destruct from; discriminate|].
  destruct (is_func to); [discriminate|].
  destruct (_ && _ && negb (N.eqb (soa_width to) (soa_width from))); [discriminate|].
  destruct (is_array from && is_pointer to) eqn:AP.
  { destruct from; try discriminate AP. cbn [ref_target] in NA. congruence. }
  destruct (is_uniform to); [rewrite V in C; discriminate C|reflexivity].
Qed.

