From Coq Require Import ZArith NArith Bool Ascii String Lia Permutation List.
From Verif Require Import TypesModel TypesSpec TypesProofs TypesProofs2.
Import ListNotations.

(** ** Common types *)

Lemma basic_num_inj a b : basic_num a = basic_num b -> a = b.
Proof. destruct a, b; cbn; congruence. Qed.

Definition joined (fv : bool) (v w : variability) : variability :=
  if var_eqb v Varying || var_eqb w Varying || fv then Varying else Uniform.
Definition join_atomic (u : variability) (c : bool) (x : basic) (d : bool) (y : basic) : ty :=
  if basic_eqb x y then Atomic u (c && d) x else if Nat.leb (basic_num y) (basic_num x) then Atomic u c x else Atomic u d y.

Lemma step_atomic rec fv v c x w d y : plain_var v -> plain_var w ->
  mg_step rec fv (Atomic v c x) (Atomic w d y) = Some (join_atomic (joined fv v w) c x d y).
Proof.
  intros V W. unfold join_atomic.
  assert (R : forall u : variability, u = Uniform \/ u = Varying -> var_eqb u u = true) by (intros u _; now apply var_eqb_eq).
  destruct (basic_eqb x y) eqn:B.
  - apply basic_eqb_eq in B. subst y. assert (BB : basic_eqb x x = true) by now apply basic_eqb_eq.
    destruct V as [->| ->], W as [->| ->], fv, c, d; unfold mg_step; cbn -[basic_eqb]; rewrite ?BB; reflexivity.
  - destruct V as [->| ->], W as [->| ->], fv; unfold mg_step; cbn -[basic_eqb Nat.leb]; rewrite ?B; cbn -[Nat.leb]; rewrite ?andb_false_r; cbn -[Nat.leb];
      destruct (Nat.leb (basic_num y) (basic_num x)); reflexivity.
Qed.

Lemma join_atomic_sym u c x d y : join_atomic u c x d y = join_atomic u d y c x.
Proof.
  unfold join_atomic, basic_eqb. rewrite (Nat.eqb_sym (basic_num y)). destruct (Nat.eqb_spec (basic_num x) (basic_num y)) as [E|E].
  - apply basic_num_inj in E. subst. now rewrite andb_comm.
  - destruct (Nat.leb_spec (basic_num y) (basic_num x)), (Nat.leb_spec (basic_num x) (basic_num y)); try reflexivity; lia.
Qed.
Lemma joined_sym fv v w : joined fv v w = joined fv w v.
Proof. unfold joined. now rewrite (orb_comm (var_eqb v Varying)). Qed.
Lemma joined_plain fv v w : plain_var (joined fv v w).
Proof. unfold joined, plain_var. destruct (_ || _); auto. Qed.

(* one function for all operands *)
Definition join_enum (fv : bool) (v : variability) (c : bool) (i : nat) (w : variability) (d : bool) (j : nat) : ty :=
  if Nat.eqb i j then Enum (joined fv v w) (c && d) i else Atomic (joined fv v w) false TUInt32.

Lemma step_enum rec fv v c i w d j : plain_var v -> plain_var w ->
  mg_step rec fv (Enum v c i) (Enum w d j) = Some (join_enum fv v c i w d j).
Proof.
  intros V W. unfold join_enum. destruct (Nat.eqb i j) eqn:B.
  - apply Nat.eqb_eq in B. subst j. pose proof (Nat.eqb_refl i) as BB.
    destruct V as [->| ->], W as [->| ->], fv, c, d; unfold mg_step; cbn; rewrite ?BB; reflexivity.
  - destruct V as [->| ->], W as [->| ->], fv; unfold mg_step; cbn; rewrite ?B; cbn; rewrite ?andb_false_r; reflexivity.
Qed.

Lemma step_atomic_enum rec fv v c x w d j : plain_var v -> plain_var w ->
  mg_step rec fv (Atomic v c x) (Enum w d j) = Some (Atomic (joined fv v w) c x).
Proof. intros [->| ->] [->| ->]; destruct fv, c, d; reflexivity. Qed.
Lemma step_enum_atomic rec fv v c i w d y : plain_var v -> plain_var w ->
  mg_step rec fv (Enum v c i) (Atomic w d y) = Some (Atomic (joined fv v w) d y).
Proof. intros [->| ->] [->| ->]; destruct fv, c, d; reflexivity. Qed.

Lemma with_var_up fv v w c b : plain_var v -> plain_var w ->
  (if var_eqb v Varying || var_eqb w Varying || fv then with_var Varying (Atomic v c b) else Atomic v c b) = Atomic (joined fv v w) c b.
Proof. unfold joined. intros [->| ->] [->| ->]; destruct fv; reflexivity. Qed.
Lemma joined_again fv v w : joined fv (joined fv v w) (joined fv v w) = joined fv v w.
Proof. unfold joined. destruct (var_eqb v Varying || var_eqb w Varying || fv) eqn:E; [reflexivity|]. apply orb_false_iff in E as [_ ->]. reflexivity. Qed.

Lemma more_atomic fv v c x w d y : plain_var v -> plain_var w ->
  more_general fv (Atomic v c x) (Atomic w d y) = Some (join_atomic (joined fv v w) c x d y).
Proof. apply step_atomic. Qed.

Lemma join_atomic_Atomic u c x d y : exists k b, join_atomic u c x d y = Atomic u k b /\ (b = x \/ b = y).
Proof. unfold join_atomic. destruct (basic_eqb x y); [eauto 6|]. destruct (Nat.leb _ _); eauto 6. Qed.

Ltac ifs := match goal with |- context [if ?b then _ else _] => destruct b end.
Lemma more_vector fv v c x m w d y n : plain_var v -> plain_var w ->
  more_general fv (Vector (Atomic v c x) m) (Vector (Atomic w d y) n) =
  if N.eqb m n then Some (Vector (join_atomic (joined fv v w) c x d y) m) else None.
Proof.
  intros V W. unfold more_general. unfold mg_step at 1.
  change (is_varying (Vector (Atomic v c x) m)) with (var_eqb v Varying). change (is_varying (Vector (Atomic w d y) n)) with (var_eqb w Varying).
  cbv zeta. set (u := var_eqb v Varying || var_eqb w Varying || fv).
  assert (E1 : (if u then with_var Varying (Vector (Atomic v c x) m) else Vector (Atomic v c x) m) = Vector (Atomic (joined fv v w) c x) m)
    by (rewrite <- (with_var_up fv v w) by assumption; unfold u; ifs; reflexivity).
  assert (E2 : (if u then with_var Varying (Vector (Atomic w d y) n) else Vector (Atomic w d y) n) = Vector (Atomic (joined fv v w) d y) n).
  { rewrite joined_sym, <- (with_var_up fv w v) by assumption. unfold u. rewrite (orb_comm (var_eqb v Varying)). ifs; reflexivity. }
  rewrite E1, E2. pose proof (joined_plain fv v w) as J.
  rewrite step_atomic by assumption. rewrite joined_again.
  destruct (join_atomic_Atomic (joined fv v w) c x d y) as (k & b & EJ & _).
  cbn [equal is_const with_const]. assert (VV : var_eqb (joined fv v w) (joined fv v w) = true) by now apply var_eqb_eq.
  rewrite VV, !andb_true_r. destruct (N.eqb_spec m n) as [<-|NE]; [|rewrite !andb_false_r; cbn [andb orb]; reflexivity].
  unfold join_atomic in *. destruct (basic_eqb x y) eqn:B.
  - apply basic_eqb_eq in B. subst. destruct c, d; reflexivity.
  - rewrite !andb_false_r. cbn [orb andb]. cbn [vector_of]. destruct (Nat.leb _ _); reflexivity.
Qed.

Lemma more_vector_atomic fv v c x m w d y : plain_var v -> plain_var w ->
  more_general fv (Vector (Atomic v c x) m) (Atomic w d y) = Some (Vector (join_atomic (joined fv v w) c x d y) m).
Proof.
  intros V W. unfold more_general. unfold mg_step at 1.
  change (is_varying (Vector (Atomic v c x) m)) with (var_eqb v Varying). change (is_varying (Atomic w d y)) with (var_eqb w Varying).
  cbv zeta. set (u := var_eqb v Varying || var_eqb w Varying || fv).
  assert (E1 : (if u then with_var Varying (Vector (Atomic v c x) m) else Vector (Atomic v c x) m) = Vector (Atomic (joined fv v w) c x) m)
    by (rewrite <- (with_var_up fv v w) by assumption; unfold u; ifs; reflexivity).
  assert (E2 : (if u then with_var Varying (Atomic w d y) else (Atomic w d y)) = (Atomic (joined fv v w) d y)).
  { rewrite joined_sym, <- (with_var_up fv w v) by assumption. unfold u. rewrite (orb_comm (var_eqb v Varying)). ifs; reflexivity. }
  rewrite E1, E2. pose proof (joined_plain fv v w) as J.
  rewrite step_atomic by assumption. rewrite joined_again.
  destruct (join_atomic_Atomic (joined fv v w) c x d y) as (k & b & EJ & _).
  cbn [equal]. rewrite !andb_false_r. rewrite EJ. reflexivity.
Qed.
Lemma more_atomic_vector fv v c x w d y n : plain_var v -> plain_var w ->
  more_general fv (Atomic v c x) (Vector (Atomic w d y) n) = Some (Vector (join_atomic (joined fv v w) c x d y) n).
Proof.
  intros V W. unfold more_general. unfold mg_step at 1.
  change (is_varying (Vector (Atomic w d y) n)) with (var_eqb w Varying). change (is_varying (Atomic v c x)) with (var_eqb v Varying).
  cbv zeta. set (u := var_eqb v Varying || var_eqb w Varying || fv).
  assert (E1 : (if u then with_var Varying (Atomic v c x) else (Atomic v c x)) = (Atomic (joined fv v w) c x))
    by (rewrite <- (with_var_up fv v w) by assumption; unfold u; ifs; reflexivity).
  assert (E2 : (if u then with_var Varying (Vector (Atomic w d y) n) else Vector (Atomic w d y) n) = Vector (Atomic (joined fv v w) d y) n).
  { rewrite joined_sym, <- (with_var_up fv w v) by assumption. unfold u. rewrite (orb_comm (var_eqb v Varying)). ifs; reflexivity. }
  rewrite E1, E2. pose proof (joined_plain fv v w) as J.
  rewrite step_atomic by assumption. rewrite joined_again.
  destruct (join_atomic_Atomic (joined fv v w) c x d y) as (k & b & EJ & _).
  cbn [equal]. rewrite !andb_false_r. rewrite EJ. reflexivity.
Qed.

Lemma more_enum_vector fv v c i w d y n : plain_var v -> plain_var w ->
  more_general fv (Enum v c i) (Vector (Atomic w d y) n) = Some (Vector (Atomic (joined fv v w) d y) n).
Proof. intros [->| ->] [->| ->]; destruct fv, c, d; reflexivity. Qed.
Lemma more_vector_enum fv v c x m w d j : plain_var v -> plain_var w ->
  more_general fv (Vector (Atomic v c x) m) (Enum w d j) = Some (Vector (Atomic (joined fv v w) c x) m).
Proof. intros [->| ->] [->| ->]; destruct fv, c, d; reflexivity. Qed.

Lemma more_sym fv t0 t1 : operand t0 -> operand t1 -> more_general fv t0 t1 = more_general fv t1 t0.
Proof.
  intros O0 O1.
  destruct t0 as [v c x|v c i| | |[v c x| | | | | | | ] m| | | ]; cbn [operand] in O0; try contradiction;
  destruct t1 as [w d y|w d j| | |[w d y| | | | | | | ] n| | | ]; cbn [operand] in O1; try contradiction.
  - rewrite !more_atomic by assumption. now rewrite joined_sym, join_atomic_sym.
  - unfold more_general. rewrite step_atomic_enum, step_enum_atomic by assumption. now rewrite joined_sym.
  - rewrite more_atomic_vector, more_vector_atomic by assumption. now rewrite joined_sym, join_atomic_sym.
  - unfold more_general. rewrite step_atomic_enum, step_enum_atomic by assumption. now rewrite joined_sym.
  - unfold more_general. rewrite !step_enum by assumption. unfold join_enum. rewrite joined_sym, (Nat.eqb_sym j).
    destruct (Nat.eqb_spec i j); subst; [now rewrite andb_comm|reflexivity].
  - rewrite more_enum_vector, more_vector_enum by assumption. now rewrite joined_sym.
  - rewrite more_atomic_vector, more_vector_atomic by assumption. now rewrite joined_sym, join_atomic_sym.
  - rewrite more_enum_vector, more_vector_enum by assumption. now rewrite joined_sym.
  - rewrite !more_vector by assumption. rewrite N.eqb_sym, joined_sym. destruct (N.eqb_spec n m); subst; [now rewrite join_atomic_sym|reflexivity].
Qed.

Lemma join_atomic_var u c x d y : var_of (join_atomic u c x d y) = u.
Proof. unfold join_atomic. destruct (basic_eqb x y); [reflexivity|]. destruct (Nat.leb _ _); reflexivity. Qed.

Lemma joined_varying fv v w : joined fv v w = Varying <-> v = Varying \/ w = Varying \/ fv = true.
Proof.
  unfold joined. destruct (var_eqb v Varying || var_eqb w Varying || fv) eqn:E.
  - split; [intros _|reflexivity]. rewrite !orb_true_iff, !var_eqb_eq in E. tauto.
  - rewrite !orb_false_iff in E. split; [discriminate|]. destruct E as [[E1 E2] E3]. intros [->|[->| ->]]; discriminate.
Qed.

Lemma more_var fv t0 t1 t : operand t0 -> operand t1 -> more_general fv t0 t1 = Some t ->
  (var_of t = Varying <-> var_of t0 = Varying \/ var_of t1 = Varying \/ fv = true) /\ plain_var (var_of t).
Proof.
  intros O0 O1 E. pose proof (joined_plain fv) as JP. pose proof (joined_varying fv) as JV.
  destruct t0 as [v c x|v c i| | |[v c x| | | | | | | ] m| | | ]; cbn [operand] in O0; try contradiction;
  destruct t1 as [w d y|w d j| | |[w d y| | | | | | | ] n| | | ]; cbn [operand] in O1; try contradiction;
  rewrite ?more_atomic, ?more_atomic_vector, ?more_vector_atomic, ?more_enum_vector, ?more_vector_enum, ?more_vector in E by assumption;
  try (unfold more_general in E; first [rewrite step_atomic_enum in E by assumption|rewrite step_enum_atomic in E by assumption|rewrite step_enum in E by assumption]);
  try (destruct (N.eqb m n); [|discriminate E]); injection E as <-; unfold join_enum; try destruct (Nat.eqb i j); cbn [var_of]; rewrite ?join_atomic_var; auto.
Qed.

(* which of two basic types wins *)
Lemma join_atomic_basic u c x d y : basic_of (join_atomic u c x d y) = Some (if Nat.leb (basic_num y) (basic_num x) then x else y).
Proof.
  unfold join_atomic, basic_eqb. destruct (Nat.eqb_spec (basic_num x) (basic_num y)) as [E|E].
  - apply basic_num_inj in E. subst. now rewrite Nat.leb_refl.
  - destruct (Nat.leb _ _); reflexivity.
Qed.

Lemma more_basic fv t0 t1 t x y : operand t0 -> operand t1 -> basic_of t0 = Some x -> basic_of t1 = Some y ->
  more_general fv t0 t1 = Some t -> basic_of t = Some (if Nat.leb (basic_num y) (basic_num x) then x else y).
Proof.
  intros O0 O1 B0 B1 E.
  destruct t0 as [v c x'|v c i| | |[v c x'| | | | | | | ] m| | | ]; cbn [operand] in O0; try contradiction; try discriminate B0; injection B0 as ->;
  destruct t1 as [w d y'|w d j| | |[w d y'| | | | | | | ] n| | | ]; cbn [operand] in O1; try contradiction; try discriminate B1; injection B1 as ->;
  rewrite ?more_atomic, ?more_atomic_vector, ?more_vector_atomic, ?more_vector in E by assumption;
  try (destruct (N.eqb m n); [|discriminate E]); injection E as <-; rewrite <- (join_atomic_basic (joined fv v w) c x d y);
  destruct (join_atomic_Atomic (joined fv v w) c x d y) as (k & b & -> & _); reflexivity.
Qed.

(** ** Overloads *)
Local Open Scope Z_scope.

Definition best_cost (cost : candidate -> option Z) (l : list candidate) (b : Z) : Z :=
  fold_left (fun b c => match cost c with Some k => if k <? b then k else b | None => b end) l b.

Lemma best_cost_spec cost l : forall b, 
  best_cost cost l b <= b /\ (forall c k, In c l -> cost c = Some k -> best_cost cost l b <= k) /\
  (best_cost cost l b = b \/ exists c, In c l /\ cost c = Some (best_cost cost l b)).
Proof.
  induction l as [|c l IH]; intros b; cbn [best_cost fold_left].
  - split; [lia|]. split; [contradiction|auto].
  - change (fold_left _ l ?x) with (best_cost cost l x). destruct (cost c) as [k|] eqn:C.
    + destruct (IH (if k <? b then k else b)) as (A & B & D). destruct (Z.ltb_spec k b).
      * split; [lia|]. split.
        -- intros d e [<-|I] E; [replace e with k by congruence; lia|eauto].
        -- destruct D as [D|(d & I & D)]; [right; exists c; split; [now left|congruence]|right; exists d; split; [now right|auto]].
      * split; [lia|]. split.
        -- intros d e [<-|I] E; [replace e with k by congruence; lia|eauto].
        -- destruct D as [D|(d & I & D)]; [now left|right; exists d; split; [now right|auto]].
    + destruct (IH b) as (A & B & D). split; [lia|]. split.
      * intros d e [<-|I] E; [congruence|eauto].
      * destruct D as [D|(d & I & D)]; [now left|right; exists d; split; [now right|auto]].
Qed.

Lemma best_cost_perm cost l m b : Permutation l m -> best_cost cost l b = best_cost cost m b.
Proof.
  intros P. destruct (best_cost_spec cost l b) as (A & B & C), (best_cost_spec cost m b) as (A' & B' & C').
  apply Z.le_antisymm.
  - destruct C' as [->|(c & I & E)]; [lia|]. apply (B c); [|assumption]. now apply (Permutation_in _ (Permutation_sym P)).
  - destruct C as [->|(c & I & E)]; [lia|]. apply (B' c); [|assumption]. now apply (Permutation_in _ P).
Qed.

Lemma filter_perm {A} (f : A -> bool) l m : Permutation l m -> Permutation (filter f l) (filter f m).
Proof.
  induction 1; cbn; auto.
  - destruct (f x); auto.
  - destruct (f x), (f y); auto. apply perm_swap.
  - eauto using Permutation_trans.
Qed.

Lemma find_best_perm cost l m : Permutation l m ->
  fst (find_best cost l) = fst (find_best cost m) /\ Permutation (snd (find_best cost l)) (snd (find_best cost m)).
Proof.
  intros P. unfold find_best. cbv zeta. change (fold_left _ l no_match) with (best_cost cost l no_match).
  change (fold_left _ m no_match) with (best_cost cost m no_match). rewrite (best_cost_perm cost l m no_match P).
  destruct (best_cost cost m no_match =? no_match); cbn; auto using filter_perm.
Qed.

Lemma resolve_perm cost e f f' t t' : Permutation f f' -> Permutation t t' -> resolve cost e f t = resolve cost e f' t'.
Proof.
  intros P Q. unfold resolve.
  pose proof (find_best_perm cost f f' P) as [A B]. pose proof (find_best_perm cost t t' Q) as [C D].
  destruct (find_best cost f) as [bf mf], (find_best cost f') as [bf' mf'], (find_best cost t) as [bt mt], (find_best cost t') as [bt' mt'].
  cbn [fst snd] in *. subst.
  destruct ((bf' =? no_match) && (bt' =? no_match)); [reflexivity|].
  assert (S1 : forall (l m : list candidate), Permutation l m -> l = m \/ (2 <= length l /\ 2 <= length m)%nat).
  { intros l m R. pose proof (Permutation_length R). destruct l as [|a [|b l]].
    - left. symmetry. now apply Permutation_nil.
    - left. symmetry. now apply Permutation_length_1_inv.
    - right. cbn in *. lia. }
  destruct (S1 _ _ B) as [->|[L1 L2]], (S1 _ _ D) as [->|[L3 L4]]; try reflexivity.
  - destruct mt as [|? [|? mt]], mt' as [|? [|? mt']]; cbn in *; try lia. destruct mf' as [|? [|? mf']]; reflexivity.
  - destruct mf as [|? [|? mf]], mf' as [|? [|? mf']]; cbn in *; try lia. reflexivity.
  - destruct mf as [|? [|? mf]], mf' as [|? [|? mf']]; cbn in *; try lia. reflexivity.
Qed.

Lemma find_best_spec cost l : let (b, m) := find_best cost l in
  b <= no_match /\ (forall c k, In c l -> cost c = Some k -> b <= k) /\
  (b < no_match -> m <> []) /\ (b = no_match -> m = []) /\
  (forall c, In c m <-> In c l /\ cost c = Some b /\ b < no_match) /\ (NoDup l -> NoDup m).
Proof.
  unfold find_best. cbv zeta. change (fold_left _ l no_match) with (best_cost cost l no_match).
  destruct (best_cost_spec cost l no_match) as (A & B & C). set (b := best_cost cost l no_match) in *.
  destruct (Z.eqb_spec b no_match) as [E|E].
  - split; [lia|]. split; [intros; specialize (B c k H H0); lia|]. split; [lia|]. split; [auto|]. split.
    + intros c. cbn. split; [contradiction|intros (_ & _ & F); lia].
    + constructor.
  - split; [lia|]. split; [exact B|]. split.
    + intros _ F. destruct C as [C|(c & I & C)]; [contradiction|].
      assert (In c (filter (fun c => match cost c with Some k => k =? b | None => false end) l)) as X.
      { apply filter_In. split; [assumption|]. rewrite C. apply Z.eqb_refl. }
      rewrite F in X. contradiction.
    + split; [contradiction|]. split.
      * intros c. rewrite filter_In. split.
        -- intros [I X]. destruct (cost c) as [k|]; [|discriminate]. apply Z.eqb_eq in X. subst. split; [auto|]. split; [auto|lia].
        -- intros (I & X & _). rewrite X. split; [assumption|apply Z.eqb_refl].
      * apply NoDup_filter.
Qed.

Lemma resolve_chosen cost e f t c : resolve cost e f t = Chosen c -> exists k, cheapest cost (f ++ t) c k.
Proof.
  unfold resolve. pose proof (find_best_spec cost f) as F. pose proof (find_best_spec cost t) as T.
  destruct (find_best cost f) as [bf mf], (find_best cost t) as [bt mt].
  destruct F as (F1 & F2 & F3 & F4 & F5 & _), T as (T1 & T2 & T3 & T4 & T5 & _).
  destruct ((bf =? no_match) && (bt =? no_match)); [discriminate|].
  assert (PF : forall x, In x mf -> bf <= bt -> exists k, cheapest cost (f ++ t) x k).
  { intros x I L. apply F5 in I as (I & X & _). exists bf. split; [apply in_or_app; auto|]. split; [assumption|].
    intros d k J E. apply in_app_or in J as [J|J]; [eauto|]. specialize (T2 _ _ J E). lia. }
  assert (PT : forall x, In x mt -> bt <= bf -> exists k, cheapest cost (f ++ t) x k).
  { intros x I L. apply T5 in I as (I & X & _). exists bt. split; [apply in_or_app; auto|]. split; [assumption|].
    intros d k J E. apply in_app_or in J as [J|J]; [|eauto]. specialize (F2 _ _ J E). lia. }
  destruct mf as [|x [|? ?]], mt as [|y [|? ?]]; try discriminate.
  - intros [= <-]. apply PT; [now left|]. assert (~ bf < no_match) by (intros Q; now apply F3 in Q). lia.
  - intros [= <-]. apply PF; [now left|]. assert (~ bt < no_match) by (intros Q; now apply T3 in Q). lia.
  - destruct (Z.eqb_spec bf bt).
    + intros [= <-]. destruct e; [apply PT|apply PF]; try (now left); lia.
    + destruct (Z.ltb_spec bt bf); intros [= <-]; [apply PT|apply PF]; try (now left); lia.
Qed.

(* without templates *)
Lemma resolve_plain cost e f : NoDup f -> (forall c k, In c f -> cost c = Some k -> k < no_match) ->
  (forall c, resolve cost e f [] = Chosen c <-> (exists k, cheapest cost f c k /\ forall d, In d f -> cost d = Some k -> d = c)) /\
  (resolve cost e f [] = Ambiguous <-> exists c d k, c <> d /\ cheapest cost f c k /\ cheapest cost f d k) /\
  (resolve cost e f [] = NoMatch <-> forall c, In c f -> cost c = None).
Proof.
  intros N R. unfold resolve. pose proof (find_best_spec cost f) as F. change (find_best cost []) with (no_match, @nil candidate).
  destruct (find_best cost f) as [bf mf]. destruct F as (F1 & F2 & F3 & F4 & F5 & F6). specialize (F6 N).
  rewrite Z.eqb_refl, andb_true_r.
  assert (CH : forall c k, cheapest cost f c k -> In c mf /\ k = bf).
  { intros c k (I & X & M). pose proof (F2 _ _ I X). specialize (R _ _ I X).
    assert (bf < no_match) as L by lia. specialize (F3 L). destruct mf as [|y mf]; [congruence|].
    destruct (proj1 (F5 y) (or_introl eq_refl)) as (I' & X' & _). specialize (M _ _ I' X'). assert (k = bf) by lia. subst k.
    split; [apply F5; auto|reflexivity]. }
  assert (HC : forall c, In c mf -> cheapest cost f c bf).
  { intros c I. apply F5 in I as (I & X & _). split; [assumption|]. split; [assumption|]. eauto. }
  destruct (Z.eqb_spec bf no_match) as [E|E].
  - specialize (F4 E). subst mf. split; [|split].
    + intros c. split; [discriminate|]. intros (k & X & _). apply CH in X as [[] _].
    + split; [discriminate|]. intros (c & d & k & _ & X & _). apply CH in X as [[] _].
    + split; [|reflexivity]. intros _ c I. destruct (cost c) as [k|] eqn:X; [|reflexivity]. specialize (R _ _ I X). specialize (F2 _ _ I X). lia.
  - assert (mf <> []) as NE by (apply F3; lia).
    assert (NM : ~ forall c, In c f -> cost c = None).
    { intros Q. destruct mf as [|y mf]; [congruence|]. destruct (proj1 (F5 y) (or_introl eq_refl)) as (I' & X' & _). rewrite (Q _ I') in X'. discriminate. }
    destruct mf as [|x [|y mf]]; [congruence|..].
    + split; [|split].
      * intros c. split.
        -- intros [= <-]. exists bf. split; [apply HC; now left|]. intros d I X. assert (In d [x]) as J by (apply F5; repeat split; auto; lia).
           destruct J as [J|[]]. congruence.
        -- intros (k & X & _). apply CH in X as [[X|[]] _]. congruence.
      * split; [discriminate|]. intros (c & d & k & D & X & Y). apply CH in X as [[X|[]] _]. apply CH in Y as [[Y|[]] _]. congruence.
      * split; [discriminate|]. intros Q. now apply NM in Q.
    + split; [|split].
      * intros c. split; [discriminate|]. intros (k & X & U). pose proof (CH _ _ X) as [_ ->].
        assert (forall z, In z (x :: y :: mf) -> z = c) as V by (intros z J; apply F5 in J as (J1 & J2 & _); auto).
        inversion F6; subst. rewrite (V x), (V y) in H1 by (cbn; auto). exfalso. apply H1. now left.
      * split; [|reflexivity]. intros _. exists x, y, bf. inversion F6; subst. split; [intros ->; apply H1; now left|]. split; apply HC; cbn; auto.
      * split; [discriminate|]. intros Q. now apply NM in Q.
Qed.

(* costs are small *)
Lemma arg_cost_bound n a p c : arg_cost n a p = Some c -> 0 <= c <= 194 * 512 * (Z.of_nat n + 1).
Proof.
  unfold arg_cost. cbv zeta. intros E.
  destruct (equal false (a_type a) p); [injection E as <-; lia|].
  destruct (a_null a && points p); [injection E as <-; lia|].
  set (s := if a_constant a then Z.of_nat n + 1 else (Z.of_nat n + 1) * 512) in *.
  assert (S1 : 0 <= s <= (Z.of_nat n + 1) * 512) by (subst s; destruct (a_constant a); lia).
  clearbody s.
  assert (U : forall o k, 0 <= k <= 192 -> (o = 0 \/ o = 2 * s) -> 0 <= o + k * s <= 194 * 512 * (Z.of_nat n + 1)) by (intros o k ? [->| ->]; nia).
  assert (G : forall z, Some z = Some c -> (exists o k, z = o + k * s /\ 0 <= k <= 192 /\ (o = 0 \/ o = 2 * s)) -> 0 <= c <= 194 * 512 * (Z.of_nat n + 1)).
  { intros z [= <-] (o & k & -> & K & O). auto. }
  assert (O2 : forall b : bool, (if b then 2 * s else 0) = 0 \/ (if b then 2 * s else 0) = 2 * s) by (intros []; auto).
  assert (O1 : match a_type a with Ref _ _ => 2 * s | _ => 0 end = 0 \/ match a_type a with Ref _ _ => 2 * s | _ => 0 end = 2 * s) by (destruct (a_type a); auto).
  destruct (match p with Ref _ _ => true | _ => false end) eqn:RP.
  - destruct p; try discriminate. destruct (_ && _); [discriminate|]. 
    match type of E with context [if ?b then 2 * s else 0] => specialize (O2 b); set (o := if b then 2 * s else 0) in * end.
    destruct (equal _ _ _); [|discriminate]. apply (G _ E). exists o, 2. split; [reflexivity|]. split; [lia|assumption].
  - set (o := match a_type a with Ref _ _ => 2 * s | _ => 0 end) in *. clearbody o.
    assert (E' : (if equal true (ref_target (a_type a)) p then Some (o + 1 * s)
        else if widening (with_const false (ref_target (a_type a))) (with_const false p) then Some (o + 8 * s)
        else if is_varying p && is_uniform (a_type a) then
          if equal false (with_var Varying (with_const false (ref_target (a_type a)))) (with_const false p) then Some (o + 16 * s)
          else if widening (with_var Varying (with_const false (ref_target (a_type a)))) (with_const false p) then Some (o + 128 * s)
          else if can_convert (with_const false (ref_target (a_type a))) (with_const false p) then Some (o + 128 * s + 64 * s) else None
        else if can_convert (with_const false (ref_target (a_type a))) (with_const false p) then Some (o + 64 * s) else None) = Some c)
      by (destruct p; try discriminate; exact E).
    clear E. repeat match type of E' with (if ?b then _ else _) = _ => destruct b end; try discriminate; apply (G _ E'); exists o;
      [exists 1|exists 8|exists 16|exists 128|exists 192|exists 64]; (split; [lia|]); (split; [lia|assumption]).
Qed.

Lemma sum_costs_bound n : forall args ps c, sum_costs n args ps = Some c -> 0 <= c <= Z.of_nat (length args) * (194 * 512 * (Z.of_nat n + 1)).
Proof.
  induction args as [|a args IH]; intros ps c E; cbn [sum_costs] in E.
  - injection E as <-. cbn. lia.
  - destruct ps as [|p ps]; [discriminate|]. destruct (arg_cost n a p) as [k|] eqn:A; [|discriminate].
    destruct (sum_costs n args ps) as [d|] eqn:S1; [|discriminate]. injection E as <-.
    apply IH in S1. apply arg_cost_bound in A. cbn [length]. lia.
Qed.

Lemma candidate_cost_bound args c k : (length args <= 103)%nat -> candidate_cost args c = Some k -> k < no_match.
Proof.
  unfold candidate_cost. intros L E. apply sum_costs_bound in E. unfold no_match. change (2 ^ 30) with 1073741824. nia.
Qed.
