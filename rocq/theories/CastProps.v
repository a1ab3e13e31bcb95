(** C63: conversions between types. *)
From Coq Require Import ZArith Lia List Bool SpecFloat.
Import ListNotations.
From Verif Require Import Bits FoldModel FoldSpec FoldProofs CastModel CastSpec CastProofs CastProofs2 CastProofs3.
Open Scope Z_scope.

(** A conversion is defined unless a floating-point number is converted to an integer type. *)
Theorem C63_defined : forall from to v, user_type from -> user_type to -> has_type from v ->
  (exists w, converts from to v w) \/ (exists x n, v = CF x /\ width to = Some n).
Proof.
  intros from to v UF UT T. destruct v as [b|z|x]; cbn [has_type] in T.
  - subst from. left. destruct (to_class to UT) as [-> |[(n & N & _)|(f & F & _)]]; eexists.
    + apply BoolBool. + eapply BoolInt; eauto. + eapply BoolFloat; eauto.
  - left. destruct (to_class to UT) as [-> |[(n & N & _)|(f & F & _)]].
    + eexists. apply IntBool.
    + pose proof (size_pos _ _ N). pose proof (pow2_pos n ltac:(lia)).
      exists (CI (if is_signed to then wraps n z else wrapu n z)).
      assert (E : wrapu n z = z + (- (z / 2 ^ n)) * 2 ^ n) by (unfold wrapu; pose proof (Z.div_mod z (2 ^ n)); lia).
      destruct (is_signed to) eqn:S.
      * assert (E' : exists k, wraps n z = z + k * 2 ^ n).
        { exists (- ((z + 2 ^ (n - 1)) / 2 ^ n)). unfold wraps. pose proof (Z.div_mod (z + 2 ^ (n - 1)) (2 ^ n)). lia. }
        destruct E' as (k & E'). eapply IntInt; [exact N| |exact E']. rewrite S. apply wraps_range; auto.
      * eapply IntInt; [exact N| |exact E]. rewrite S. apply wrapu_range. lia.
    + eexists. eapply IntFloat; eauto.
  - destruct T as (f & F). destruct (to_class to UT) as [-> |[(n & N & _)|(g & G & _)]].
    + left. eexists. apply FloatBool.
    + right. eauto.
    + left. eexists. eapply FloatFloat; eauto.
Qed.
Print Assumptions C63_defined.

(** Uniform to uniform, uniform to varying, varying to varying: every lane has the value the conversion yields. *)
Theorem C63_uniform : forall mb pw W from to s v,
  mask_size mb -> user_type from -> user_type to -> lane_represents 1 from s v ->
  exists s', cast_basic mb pw W false false from to (Sc s) = Some (Sc s') /\ right_lane 1 from to v s'.
Proof. exact cast_uniform. Qed.
Print Assumptions C63_uniform.

Theorem C63_uniform_to_varying : forall mb pw W from to s v,
  mask_size mb -> user_type from -> user_type to -> lane_represents 1 from s v ->
  exists s', cast_basic mb pw W false true from to (Sc s) = Some (Vec (repeat s' W)) /\ right_lane mb from to v s'.
Proof. exact cast_smear. Qed.
Print Assumptions C63_uniform_to_varying.

Theorem C63_varying : forall mb pw W from to l vs,
  mask_size mb -> user_type from -> user_type to -> lanes_represent mb from l vs ->
  exists l', cast_basic mb pw W true true from to (Vec l) = Some (Vec l') /\ right_lanes mb from to vs l'.
Proof. exact cast_varying. Qed.
Print Assumptions C63_varying.

(** Short vectors: element by element, in every lane.  A uniform vector may have more elements in memory than its type. *)
Theorem C63_uniform_vectors : forall mb pw W n from to l vs,
  mask_size mb -> user_type from -> user_type to -> lanes_represent 1 from l vs ->
  exists l', cast_vector mb pw W n false false from to (Vec l) = Some (Vec l') /\ right_lanes 1 from to vs l'.
Proof. exact cast_uvec. Qed.
Print Assumptions C63_uniform_vectors.

Theorem C63_uniform_to_varying_vectors : forall mb pw W n from to l vs,
  mask_size mb -> user_type from -> user_type to -> (n <= length l)%nat -> lanes_represent 1 from l vs ->
  exists rs, cast_vector mb pw W n false true from to (Vec l) = Some (Agg (map (fun s => Vec (repeat s W)) rs)) /\
    right_lanes mb from to (firstn n vs) rs.
Proof. exact cast_uvec_varying. Qed.
Print Assumptions C63_uniform_to_varying_vectors.

Theorem C63_varying_vectors : forall mb pw W from to ls vss,
  mask_size mb -> user_type from -> user_type to -> Forall2 (lanes_represent mb from) ls vss ->
  exists rs, cast_vector mb pw W (length ls) true true from to (Agg (map Vec ls)) = Some (Agg (map Vec rs)) /\
    Forall2 (right_lanes mb from to) vss rs.
Proof. exact cast_vvec. Qed.
Print Assumptions C63_varying_vectors.

(** A single value to a short vector: every element.  Missing: to a uniform vector of bool. *)
Theorem C63_splat_partial : forall mb pw W n mem from to s v,
  mask_size mb -> user_type from -> user_type to -> to <> BBool -> lane_represents 1 from s v ->
  exists s', cast_splat mb pw W n mem false false from to (Sc s) = Some (Vec (repeat s' mem)) /\ right_lane 1 from to v s'.
Proof. exact splat_uniform. Qed.
Print Assumptions C63_splat_partial.

Theorem C63_splat_uniform_to_varying : forall mb pw W n mem from to s v,
  mask_size mb -> user_type from -> user_type to -> lane_represents 1 from s v ->
  exists s', cast_splat mb pw W n mem false true from to (Sc s) = Some (Agg (repeat (Vec (repeat s' W)) n)) /\ right_lane mb from to v s'.
Proof. exact splat_uniform_varying. Qed.
Print Assumptions C63_splat_uniform_to_varying.

Theorem C63_splat_varying : forall mb pw W n mem from to l vs,
  mask_size mb -> user_type from -> user_type to -> lanes_represent mb from l vs ->
  exists l', cast_splat mb pw W n mem true true from to (Vec l) = Some (Agg (repeat (Vec l') n)) /\ right_lanes mb from to vs l'.
Proof. exact splat_varying. Qed.
Print Assumptions C63_splat_varying.

(** The compiler fails for every uniform value converted to a uniform short vector of bool. *)
Theorem C63_splat_bool_refuted : forall mb pw W n mem from s v,
  mask_size mb -> user_type from -> represents 1 from s v ->
  cast_splat mb pw W n mem false false from BBool (Sc s) = None.
Proof.
  intros mb pw W n mem from s v M U R. unfold cast_splat.
  destruct (bool_case _ _ _ U R) as (o & O & E). unfold conv_atomic. cbn [is_varying andb negb].
  replace (match from with BBool => Some (Sc s) | _ => Some (Sc s) end) with (Some (Sc s)) by (destruct from; auto).
  cbn [bind]. rewrite O. cbn [bind lift]. rewrite E. reflexivity.
Qed.
Print Assumptions C63_splat_bool_refuted.

(** A uniform structure converted to varying: every instance sees the uniform structure's values in all members, of
    any nesting of structures, arrays and short vectors. *)
Theorem C63_structures : forall mb pw W t v x,
  mask_size mb -> 0 < pw -> uniform_value pw t v x -> user_sty t ->
  exists r, to_varying mb pw W t v = Some r /\ forall i, (i < W)%nat -> varying_value pw i t r x.
Proof. intros mb pw W t v x M P. apply (struct_ok mb pw W M P). Qed.
Print Assumptions C63_structures.

(** An integer that has at most as many bits as the mantissa survives the conversion to the floating-point type and back. *)
Theorem C63_exact_integers : forall mb pw W t ft k f z,
  mask_size mb -> user_type t -> width t = Some k -> float_format ft = Some f -> in_range k (is_signed t) z ->
  Z.abs z < 2 ^ prec f ->
  bind (cast_basic mb pw W false false t ft (Sc (IV k (z mod 2 ^ k)))) (cast_basic mb pw W false false ft t) =
    Some (Sc (IV k (z mod 2 ^ k))).
Proof.
  intros mb pw W t ft k f z M U K F R L.
  assert (UF : user_type ft) by (intros ->; discriminate).
  assert (FT : float_type f) by (unfold float_type; destruct ft; cbn in F; try discriminate; injection F as <-; auto).
  destruct (cast_uniform mb pw W t ft (IV k (z mod 2 ^ k)) (Some (CI z)) M U UF) as (s1 & -> & X).
  { exists k. auto. }
  specialize (X _ (IntFloat t ft f z F)). cbn [bind].
  destruct (cast_uniform mb pw W ft t s1 (Some (CF (of_int f z))) M UF U X) as (s2 & -> & Y).
  specialize (Y (CI z)). destruct Y as (k' & K' & _ & ->).
  - eapply FloatInt; [exact K| |exact R]. apply trunc_spec. apply of_int_trunc; auto.
  - assert (k' = k) as -> by congruence. auto.
Qed.
Print Assumptions C63_exact_integers.

(** Pointers: the integer is the address modulo 2 to its size, and an integer type of at least the size of a pointer
    holds it exactly.  A pointer converted to bool tells whether it is null. *)
Theorem C63_pointer_to_integer : forall pw W t n,
  width t = Some n -> 0 < pw ->
  (forall a, cast_ptr_int pw W false false t (Sc (PV a)) = Some (Sc (IV n (a mod 2 ^ n)))) /\
  (forall a, 0 <= a < 2 ^ pw -> cast_ptr_int pw W false true t (Sc (PV a)) = Some (Vec (repeat (IV n (a mod 2 ^ n)) W))) /\
  (forall l, Forall (fun a => 0 <= a < 2 ^ pw) l ->
     cast_ptr_int pw W true true t (Vec (map (IV pw) l)) = Some (Vec (map (fun a => IV n (a mod 2 ^ n)) l))).
Proof.
  intros pw W t n N P. split; [|split]; intros.
  - apply ptr_int_uniform; auto.
  - apply ptr_int_smear; auto.
  - apply ptr_int_varying; auto.
Qed.
Print Assumptions C63_pointer_to_integer.

Theorem C63_pointer_round_trip : forall pw W t n,
  width t = Some n -> pw <= n -> 0 < pw ->
  (forall a, 0 <= a < 2 ^ pw ->
     bind (cast_ptr_int pw W false false t (Sc (PV a))) (cast_int_ptr pw W false false t) = Some (Sc (PV a))) /\
  (forall l, Forall (fun a => 0 <= a < 2 ^ pw) l ->
     bind (cast_ptr_int pw W true true t (Vec (map (IV pw) l))) (cast_int_ptr pw W true true t) = Some (Vec (map (IV pw) l))).
Proof.
  intros pw W t n N L P. split; intros.
  - eapply ptr_round_uniform; eauto.
  - eapply ptr_round_varying; eauto.
Qed.
Print Assumptions C63_pointer_round_trip.

(** An integer converted to a pointer is the address modulo 2 to the size of a pointer. *)
Theorem C63_integer_to_pointer : forall pw W t n,
  width t = Some n -> 0 < pw ->
  (forall b, 0 <= b < 2 ^ n -> cast_int_ptr pw W false false t (Sc (IV n b)) = Some (Sc (PV (b mod 2 ^ pw)))) /\
  (forall b, 0 <= b < 2 ^ n -> cast_int_ptr pw W false true t (Sc (IV n b)) = Some (Vec (repeat (IV pw (b mod 2 ^ pw)) W))) /\
  (forall l, Forall (fun b => 0 <= b < 2 ^ n) l ->
     cast_int_ptr pw W true true t (Vec (map (IV n) l)) = Some (Vec (map (fun b => IV pw (b mod 2 ^ pw)) l))).
Proof.
  intros pw W t n N P. split; [|split]; intros.
  - apply int_ptr_uniform; auto.
  - apply int_ptr_smear; auto.
  - apply int_ptr_varying; auto.
Qed.
Print Assumptions C63_integer_to_pointer.

(** A pointer converted to a pointer of another type has the same address, in every lane if it becomes varying. *)
Theorem C63_pointer_to_pointer : forall pw W, 0 < pw ->
  (forall a, cast_ptr_ptr pw W false false (Sc (PV a)) = Some (Sc (PV a))) /\
  (forall a, 0 <= a < 2 ^ pw -> cast_ptr_ptr pw W false true (Sc (PV a)) = Some (Vec (repeat (IV pw a) W))) /\
  (forall l, cast_ptr_ptr pw W true true (Vec (map (IV pw) l)) = Some (Vec (map (IV pw) l))).
Proof.
  intros pw W P. split; [|split]; intros; auto. unfold cast_ptr_ptr. cbn [andb negb smear]. unfold wrapu.
  rewrite Z.mod_small by auto. auto.
Qed.
Print Assumptions C63_pointer_to_pointer.

Theorem C63_pointer_to_bool : forall mb pw W,
  mask_size mb -> 0 < pw ->
  (forall a, 0 <= a < 2 ^ pw -> exists s, cast_ptr_bool mb pw W false false (Sc (PV a)) = Some (Sc s) /\ represents 1 BBool s (CB (negb (a =? 0)))) /\
  (forall a, 0 <= a < 2 ^ pw -> exists s, cast_ptr_bool mb pw W false true (Sc (PV a)) = Some (Vec (repeat s W)) /\ represents mb BBool s (CB (negb (a =? 0)))) /\
  (forall l, exists ss, cast_ptr_bool mb pw W true true (Vec (map (IV pw) l)) = Some (Vec ss) /\
     Forall2 (fun a s => represents mb BBool s (CB (negb (a =? 0)))) l ss).
Proof.
  intros mb pw W M P. split; [|split].
  - intros a A. eexists. split; [apply (ptr_bool_ok mb pw W a M P A)|]. cbn. split; [auto|]. destruct (a =? 0); reflexivity.
  - intros a A. eexists. split; [apply (ptr_bool_ok mb pw W a M P A)|]. cbn. split; [auto|]. destruct (a =? 0); reflexivity.
  - intros l. eexists. split; [apply ptr_bool_varying; auto|]. induction l as [|a l IH]; constructor; auto.
    cbn. split; [auto|]. destruct (a =? 0); reflexivity.
Qed.
Print Assumptions C63_pointer_to_bool.

(** The values of enumerators: the one written, or one more than the one before; the first is 0.  Modulo 2^32. *)
Theorem C63_enumerators : forall l i o, nth_error l i = Some o ->
  nth_error (enum_values 0 l) i =
    Some (match o with
          | Some z => z mod 2 ^ 32
          | None => match i with O => 0 | S j => (nth j (enum_values 0 l) 0 + 1) mod 2 ^ 32 end
          end).
Proof. intros. apply enum_nth. auto. Qed.
Print Assumptions C63_enumerators.

(** An enumerator with a negative value has a different value when it is converted to a 64-bit integer or to a
    floating-point type: 2^32 is added. *)
Theorem C63_negative_enumerator_refuted : forall mb pw W z, mask_size mb -> - 2 ^ 31 <= z < 0 ->
  exists e, enum_values 0 [Some z] = [e] /\
    cast_basic mb pw W false false enum_basic BInt64 (Sc (IV 32 e)) = Some (Sc (IV 64 ((z + 2 ^ 32) mod 2 ^ 64))) /\
    ~ represents 1 BInt64 (IV 64 ((z + 2 ^ 32) mod 2 ^ 64)) (CI z).
Proof.
  intros mb pw W z M R. exists (z mod 2 ^ 32). assert (E : z mod 2 ^ 32 = z + 2 ^ 32) by lia. split; [auto|]. split.
  - rewrite E. cbn. do 3 f_equal. lia.
  - intros (k & K & _ & X). injection K as <-. injection X as X. revert X. lia.
Qed.
Print Assumptions C63_negative_enumerator_refuted.

(** ** Examples *)
Example C63_ex_lanes :
  lanes_represent 32 BInt8 [IV 8 253; Poison] [Some (CI (-3)); None] /\ converts BInt8 BUInt16 (CI (-3)) (CI 65533) /\
  cast_basic 32 64 2 true true BInt8 BUInt16 (Vec [IV 8 253; Poison]) = Some (Vec [IV 16 65533; Poison]) /\
  cast_basic 32 64 4 true true BBool BFloat (Vec [IV 32 (2 ^ 32 - 1); IV 32 0]) = Some (Vec [FV single (S754_finite false 8388608 (-23)); FV single (S754_zero false)]) /\
  cast_basic 16 64 3 false true BFloat BBool (Sc (FV single S754_nan)) = Some (Vec [IV 16 65535; IV 16 65535; IV 16 65535]).
Proof.
  split; [|split; [|split; [|split]]]; try reflexivity.
  - constructor; [|constructor; [reflexivity|constructor]]. exists 8. split; [reflexivity|]. split; [cbn; lia|reflexivity].
  - apply (IntInt BInt8 BUInt16 16 (-3) 65533 1); [reflexivity|cbn; lia|reflexivity].
Qed.
Example C63_ex_float : toward_zero (S754_finite true 15 (-2)) (-3) /\
  cast_basic 1 64 4 false false BFloat BInt32 (Sc (FV single (S754_finite true 15728640 (-22)))) = Some (Sc (IV 32 4294967293)) /\
  cast_basic 1 64 4 false false BDouble BUInt8 (Sc (FV double (S754_finite false 1 8))) = Some (Sc Poison).
Proof. split; [exists 3; cbn; lia|]. split; reflexivity. Qed.
Definition C63_struct : sty := SStruct [(false, SBasic BBool); (true, SBasic BInt32); (false, SArr 2 (SVecOf 3 BFloat)); (false, SPtr)].
Example C63_ex_struct :
  let f := FV single (S754_finite false 8388608 (-23)) in
  let u := Agg [Sc (IV 8 1); Sc (IV 32 7); Agg [Vec [f; f; f; Poison]; Vec [f; f; f; Poison]]; Sc (PV 4096)] in
  user_sty C63_struct /\ (exists x, uniform_value 64 C63_struct u x) /\
  to_varying 32 64 2 C63_struct u =
    Some (Agg [Vec [IV 8 1; IV 8 1]; Sc (IV 32 7); Agg [Agg [Vec [f; f]; Vec [f; f]; Vec [f; f]]; Agg [Vec [f; f]; Vec [f; f]; Vec [f; f]]];
               Vec [IV 64 4096; IV 64 4096]]).
Proof.
  split; [repeat constructor; discriminate|]. split; [|reflexivity].
  assert (F : mem_rep BFloat (FV single (S754_finite false 8388608 (-23))) (CF (S754_finite false 8388608 (-23)))) by
    (constructor; [discriminate|]; exists single; auto).
  eexists. apply UStruct. apply UCons; [apply UBasic; apply (MBool true)|]. apply UCons.
  { apply UBasic. apply (MOther BInt32 (IV 32 7) (CI 7)); [discriminate|]. exists 32. split; [reflexivity|]. split; [cbn; lia|reflexivity]. }
  apply UCons; [|apply UCons; [apply UPtr; lia|apply UNil]].
  apply UArr. cbn [repeat]. repeat (apply UCons || apply UNil || apply UVec || (apply UBasic; exact F) || cbn [repeat map]).
Qed.
Example C63_ex_enum : enum_values 0 [None; Some 5; None; Some (-1); None] = [0; 5; 6; 4294967295; 0].
Proof. reflexivity. Qed.
