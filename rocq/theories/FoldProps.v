(** C31: a folded constant is the value the program would have computed at run time. *)
From Coq Require Import ZArith List Bool Lia SpecFloat.
From Verif Require Import Bits FoldModel FoldSpec FoldProofs.
Import ListNotations.
Open Scope Z_scope.

Definition i8 := {| bits := 8; sgn := true |}.
Definition u16 := {| bits := 16; sgn := false |}.
Definition i32 := {| bits := 32; sgn := true |}.
Definition i64 := {| bits := 64; sgn := true |}.

(** Binary operators on integers, any number of lanes, whatever the C++ compiler does on overflow: a lane
    that the instruction defines gets the value of the instruction. *)
Theorem C31_integer_operators_agree : forall hw wrap t op v0 v1 vs,
  int_type t -> Forall (fits t) v0 -> Forall (fits t) v1 -> length v0 = length v1 ->
  fold_binary hw t op v0 v1 = FConst vs ->
  length vs = length v0 /\
  forall i a b, nth_error v0 i = Some a -> nth_error v1 i = Some b ->
  forall r, run_binary wrap t op (pat t a) (pat t b) = Some r ->
  exists v, nth_error vs i = Some v /\ pat t v = r.
Proof. exact fold_lanewise. Qed.
Print Assumptions C31_integer_operators_agree.

(** Where every lane is defined at run time, a compiler built with a C++ compiler that wraps does fold. *)
Theorem C31_integer_operators_fold_partial : forall wrap t op v0 v1 rs,
  int_type t -> Forall (fits t) v0 -> Forall (fits t) v1 -> length v0 = length v1 ->
  Forall2 (fun xy r => run_binary wrap t op (fst xy) (snd xy) = Some r) (combine (map (pat t) v0) (map (pat t) v1)) rs ->
  exists vs, fold_binary true t op v0 v1 = FConst vs /\ map (pat t) vs = rs.
Proof. exact fold_agrees. Qed.
Print Assumptions C31_integer_operators_fold_partial.
Example C31_ex1 : let v0 := [-128; 100; 7] in let v1 := [-1; 27; -7] in
  Forall (fits i8) v0 /\ Forall (fits i8) v1 /\ fold_binary true i8 Sub v0 v1 = FConst [-127; 73; 14] /\
  run_binary false i8 Sub (pat i8 (-128)) (pat i8 (-1)) = Some 129.
Proof. cbn zeta. split; [repeat constructor; cbn; lia|]. split; [repeat constructor; cbn; lia|]. split; reflexivity. Qed.

Theorem C31_negation_agrees : forall hw wrap varying t a r v,
  int_type t -> fits t a -> ~ (varying = true /\ bits t = 16 /\ sgn t = false) ->
  run_negate wrap t (pat t a) = Some r -> fold_negate hw varying t a = Some (HVal v) -> pat t v = r.
Proof.
  intros hw wrap varying t a r v T A N R E. apply (negate_agrees hw wrap t a r v T A R). destruct varying; auto.
  rewrite negate_varying in E; auto.
Qed.
Print Assumptions C31_negation_agrees.

Theorem C31_complement_agrees : forall t a, int_type t -> fits t a -> pat t (fold_bitnot t a) = run_bitnot t (pat t a).
Proof. exact bitnot_agrees. Qed.
Print Assumptions C31_complement_agrees.

Theorem C31_integer_conversions_agree : forall from to a, int_type from -> int_type to -> fits from a ->
  pat to (conv_int to a) = run_conv_int from to (pat from a) /\ fits to (conv_int to a).
Proof. intros from to a F T A. split; [apply conv_int_agrees; auto|apply cast_fits; auto]. Qed.
Print Assumptions C31_integer_conversions_agree.
Example C31_ex2 : conv_int u16 (-3) = 65533 /\ run_conv_int i8 u16 (pat i8 (-3)) = 65533.
Proof. split; reflexivity. Qed.

Theorem C31_bool_operators_agree : forall n op a b r, 0 < n ->
  fold_bool op a b = Some r -> run_bool n op (pat_bool n a) (pat_bool n b) = Some (pat_bool n r).
Proof. exact bool_agrees. Qed.
Print Assumptions C31_bool_operators_agree.
(** They are folded. *)
Theorem C31_bool_operators_folded : forall op a b, In op [BitAnd; BitXor; BitOr; Lt; Gt; Le; Ge; Equal; NotEqual] -> exists r, fold_bool op a b = Some r.
Proof. intros op a b I0. cbn in I0. repeat destruct I0 as [<-|I0]; try (eexists; reflexivity). destruct I0. Qed.
Print Assumptions C31_bool_operators_folded.

(** &&, || and !: and, or, and exclusive or with all ones. *)
Theorem C31_logical_operators_agree : forall n a b, 0 < n ->
  pat_bool n (fold_land a b) = Z.land (pat_bool n a) (pat_bool n b) /\
  pat_bool n (fold_lor a b) = Z.lor (pat_bool n a) (pat_bool n b) /\
  pat_bool n (fold_lnot a) = Z.lxor (pat_bool n a) (2 ^ n - 1).
Proof.
  intros n a b N. unfold fold_land, fold_lor, fold_lnot.
  destruct a, b; cbn [andb orb negb pat_bool]; rewrite ?Z.land_diag, ?Z.lor_diag, ?Z.lxor_nilpotent, ?Z.land_0_r, ?Z.lor_0_r, ?Z.land_0_l, ?Z.lor_0_l, ?Z.lxor_0_l; auto.
Qed.
Print Assumptions C31_logical_operators_agree.

(** bool to integer types and back. *)
Theorem C31_bool_conversions_agree : forall n t, 0 < n -> int_type t ->
  (forall b, pat t (conv_bool_int b) = run_bool_int n (pat_bool n b) /\ fits t (conv_bool_int b)) /\
  (forall a, fits t a -> pat_bool n (conv_int_bool a) = run_int_bool n (pat t a)).
Proof.
  intros n t N T. pose proof (type_bits t T) as TB. pose proof (pow2_pos n ltac:(lia)) as P.
  assert (P1 : 1 < 2 ^ n) by (change 1 with (2 ^ 0) at 1; apply Z.pow_lt_mono_r; lia). split.
  - intros b. assert (F : fits t (conv_bool_int b)).
    { unfold fits, conv_bool_int. assert (1 < 2 ^ (bits t - 1)) by (change 1 with (2 ^ 0) at 1; apply Z.pow_lt_mono_r; lia).
      assert (2 ^ (bits t - 1) < 2 ^ bits t) by (apply Z.pow_lt_mono_r; lia). destruct (sgn t), b; lia. }
    split; [|auto]. unfold run_bool_int, pat_bool. destruct b.
    + rewrite Z.eqb_refl. unfold pat, conv_bool_int. apply Z.mod_small.
      assert (1 < 2 ^ bits t) by (change 1 with (2 ^ 0) at 1; apply Z.pow_lt_mono_r; lia). lia.
    + destruct (Z.eqb_spec 0 (2 ^ n - 1)); [lia|]. unfold pat, conv_bool_int. apply Z.mod_0_l. pose proof (pow2_pos (bits t) ltac:(lia)). lia.
  - intros a F. unfold run_int_bool, conv_int_bool. rewrite pat_zero by auto. auto.
Qed.
Print Assumptions C31_bool_conversions_agree.
Theorem C31_bool_to_float_agrees : forall t b, float_type t ->
  conv_bool_float t b = binary_normalize (prec t) (emax t) (if b then 1 else 0) 0 false.
Proof. intros t b [-> |[-> | ->]]; destruct b; reflexivity. Qed.
Print Assumptions C31_bool_to_float_agrees.

(** select() and ?: with a constant test. *)
Theorem C31_select_agrees : forall A bv (v1 v2 : list A), length bv = length v1 -> length bv = length v2 -> bv <> [] ->
  let r := match fold_select bv with SFirst => v1 | SSecond => v2 | SBoth => select_lanes bv v1 v2 end in
  forall i b x y, nth_error bv i = Some b -> nth_error v1 i = Some x -> nth_error v2 i = Some y ->
  nth_error r i = Some (if b then x else y).
Proof. intros A bv v1 v2 L1 L2 NE r i b x y B X Y. unfold r. rewrite select_agrees by auto. apply select_lanes_nth; auto. Qed.
Print Assumptions C31_select_agrees.

Theorem C31_float_comparisons_agree : forall op a b r, fold_fcmp op a b = Some r <-> run_fcmp op a b = Some r.
Proof. intros op a b r. split; [apply fcmp_agrees|]. intros R. destruct (fold_fcmp op a b) eqn:E; [now rewrite (fcmp_agrees _ _ _ _ E) in R|]. destruct op; discriminate. Qed.
Print Assumptions C31_float_comparisons_agree.
Example C31_ex3 : fold_fcmp NotEqual S754_nan S754_nan = Some true /\ fold_fcmp Le S754_nan S754_nan = Some false /\
  fold_fcmp Equal (S754_zero true) (S754_zero false) = Some true.
Proof. repeat split; reflexivity. Qed.

Theorem C31_float_to_bool_agrees : forall a b,
  conv_float_bool a = run_float_bool a /\
  fold_fland a b = run_float_bool a && run_float_bool b /\ fold_flor a b = run_float_bool a || run_float_bool b.
Proof. intros a b. unfold fold_fland, fold_flor. rewrite !float_bool_agrees. auto. Qed.
Print Assumptions C31_float_to_bool_agrees.

Theorem C31_float_to_integer_agrees : forall from t x z, float_type from -> is_float from x -> int_type t ->
  conv_float_int from t x = Some z <-> toward_zero x z /\ fits t z.
Proof. exact float_int_spec. Qed.
Print Assumptions C31_float_to_integer_agrees.
Example C31_ex4 : conv_float_int single i32 (S754_finite true 15 (-2)) = Some (-3) /\ is_float single (S754_finite false 8388611 (-22)) /\
  conv_float_int single i32 (S754_finite false 8388611 (-22)) = Some 2.
Proof. repeat split; vm_compute; reflexivity. Qed.

(** Missing: integers of more than 53 bits converted to float or float16. *)
Theorem C31_integer_to_float_agrees_partial : forall to t a, float_type to -> int_type t -> fits t a ->
  Z.abs a < 2 ^ 53 \/ to = double -> conv_int_float to a = run_int_float to t (pat t a).
Proof. intros to t a F T A L. unfold run_int_float. rewrite val_of_pat by auto. apply int_float_agrees; auto. Qed.
Print Assumptions C31_integer_to_float_agrees_partial.
Example C31_ex5 : conv_int_float single 16777217 = S754_finite false 8388608 1 /\ fits i32 16777217.
Proof. split; [vm_compute; reflexivity|cbn; lia]. Qed.

(** They are rounded twice. *)
Theorem C31_int64_to_float_rounded_twice_refuted : exists a, fits i64 a /\
  conv_int_float single a <> run_int_float single i64 (pat i64 a).
Proof. exists (2 ^ 53 + 2 ^ 29 + 1). split; [cbn; lia|]. vm_compute. discriminate. Qed.
Print Assumptions C31_int64_to_float_rounded_twice_refuted.

(** -2147483648 / -1 and % stop the compiler. *)
Theorem C31_division_overflow_stops_compiler_refuted : forall hw op, In op [Div; Mod] ->
  fold_binary hw i32 op [- 2 ^ 31] [-1] = FCrash /\ fold_binary hw i64 op [- 2 ^ 63] [-1] = FCrash.
Proof. intros hw op [<-|[<-|[]]]; destruct hw; split; vm_compute; reflexivity. Qed.
Print Assumptions C31_division_overflow_stops_compiler_refuted.

(** A division by zero in any lane leaves the expression in the program. *)
Theorem C31_division_by_zero_not_folded : forall hw t op v0 v1, In op [Div; Mod] -> length v0 = length v1 -> In 0 v1 ->
  forall vs, fold_binary hw t op v0 v1 <> FConst vs.
Proof.
  intros hw t op v0 v1 O. revert v1. induction v0 as [|a v0 IH]; intros [|b v1] L I vs; try discriminate; [destruct I|].
  cbn [fold_binary]. destruct I as [->|I].
  - replace (fold_lane hw t op a 0) with (@None (host Z)); [discriminate|]. destruct O as [<-|[<-|[]]]; reflexivity.
  - cbn in L. destruct (fold_lane hw t op a b) as [[v| |]|]; try discriminate.
    destruct (fold_binary hw t op v0 v1) eqn:E; try discriminate. exfalso. eapply (IH v1); eauto.
Qed.
Print Assumptions C31_division_by_zero_not_folded.

(** By the C++ standard the compiler's own arithmetic is undefined where the program's is not. *)
Theorem C31_folding_undefined_in_compiler_refuted :
  fold_binary false u16 Mul [65535] [65535] = FUndef /\ run_binary false u16 Mul 65535 65535 = Some 1 /\
  fold_binary false i32 Shl [-1] [1] = FUndef /\ run_binary false i32 Shl (pat i32 (-1)) 1 = Some (pat i32 (-2)).
Proof. repeat split; vm_compute; reflexivity. Qed.
Print Assumptions C31_folding_undefined_in_compiler_refuted.

(** -x for a constant varying uint16 fails an assertion. *)
Theorem C31_negate_varying_uint16_refuted : forall hw a, fold_negate hw true u16 a = None.
Proof. reflexivity. Qed.
Print Assumptions C31_negate_varying_uint16_refuted.
