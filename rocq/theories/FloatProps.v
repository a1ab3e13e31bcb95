(** C71: ldexp, frexp and the functions that look at the representation.  C72: fmod.  C73: min, max and clamp. *)
From Coq Require Import ZArith Lia Bool List SpecFloat.
From Verif Require Import Bits FloatModel FloatSpec FloatProofs FloatProofs2 FloatProofs3 FloatProofs4 FloatProofs5 FloatProofs6.
Import ListNotations.
Local Open Scope Z_scope.

(** C71.  ldexp(x, n) is x * 2^n when x and the result are normal numbers... *)
Theorem C71_ldexp_partial : forall F fast x n, format F -> pattern F x -> normal F x -> 0 < exponent F x + n < 2 ^ ew F - 1 ->
  let y := ldexp F fast x n in pattern F y /\ normal F y /\ scaled n (units F y) (units F x).
Proof. intros F fast x n HF. apply ldexp_ok. apply format_wf. exact HF. Qed.
(** ...and for zero, except with the fast math library. *)
Theorem C71_ldexp_zero_partial : forall F x n, format F -> pattern F x -> units F x = 0 -> ldexp F false x n = x.
Proof. intros F x n HF. apply ldexp_zero. apply format_wf. exact HF. Qed.
(* 3 * 2^-4 = 3/16 *)
Example C71_ldexp_live : normal f32 (128 * 2 ^ 23 + 2 ^ 22) /\ ldexp f32 false (128 * 2 ^ 23 + 2 ^ 22) (-4) = 124 * 2 ^ 23 + 2 ^ 22 /\
  16 * units f32 (124 * 2 ^ 23 + 2 ^ 22) = 3 * unit1 f32.
Proof. unfold normal. repeat split; vm_compute; congruence. Qed.

(** frexp splits a normal number into r and p with x = r * 2^p and 1/2 <= |r| < 1. *)
Theorem C71_frexp_partial : forall F x, format F -> pattern F x -> normal F x -> let '(r, p) := frexp F x in
  pattern F r /\ finite F r /\ scaled p (units F x) (units F r) /\ unit1 F <= 2 * Z.abs (units F r) < 2 * unit1 F.
Proof. intros F x HF. apply frexp_ok. apply format_wf. exact HF. Qed.
Example C71_frexp_live : frexp f32 (130 * 2 ^ 23 + 2 ^ 21) (* 10 *) = (126 * 2 ^ 23 + 2 ^ 21 (* 5/8 *), 4).
Proof. reflexivity. Qed.
(** The two are inverses on normal numbers. *)
Theorem C71_round_trip : forall F fast x, format F -> pattern F x -> normal F x -> let '(r, p) := frexp F x in ldexp F fast r p = x.
Proof.
  intros F fast x HF Px Nx. assert (W := format_wf F HF). pose proof (frexp_ok F W x Px Nx) as H. destruct (frexp F x) as [r p] eqn:Q. destruct H as (Pr & Fr & SC & HR).
  unfold frexp in Q. injection Q as Er Ep. pose proof (W1 F W) as H1. pose proof (W2 F W) as H2. pose proof (ew2 F W) as E2. pose proof (pow_mw F W) as PM.
  rewrite (Z.land_comm (emask F)), (land_emask F W) in Ep by apply Px. rewrite Z.div_mul in Ep by lia.
  destruct (set_exponent F W x (emx F - 2) Px ltac:(lia)) as (_ & Ey & Ry & Sy). rewrite Er in Ey, Ry, Sy. unfold normal in Nx.
  destruct (ldexp_fields F W fast r p Pr ltac:(lia)) as (P3 & E3 & R3 & S3); [right; left; pose proof (unit1_pos F W); lia|].
  rewrite (fields F W _ P3), (fields F W x Px), E3, R3, S3, Ey, Ry, Sy, <- Ep. replace (emx F - 2 + (exponent F x - (emx F - 2))) with (exponent F x) by lia. reflexivity.
Qed.

(** abs clears the sign and nothing else; signbits is the sign bit; isnan, isinf and isfinite recognize what they say. *)
Theorem C71_abs : forall F x, format F -> pattern F x -> let y := fabs F x in
  pattern F y /\ ~ negative F y /\ exponent F y = exponent F x /\ fraction F y = fraction F x /\ units F y = Z.abs (units F x).
Proof. intros F x HF. apply fabs_ok. apply format_wf. exact HF. Qed.
Theorem C71_classify : forall F x, format F -> pattern F x ->
  signbits F x = (if 2 ^ (width F - 1) <=? x then 2 ^ (width F - 1) else 0) /\
  (isnan F x = true <-> not_a_number F x) /\ (isinf F x = true <-> infinite F x) /\ (isfinite F x = true <-> finite F x).
Proof.
  intros F x HF Px. assert (W := format_wf F HF). split; [apply signbits_ok; auto|]. split; [apply isnan_ok; auto|]. split; [apply isinf_ok; auto|apply isfinite_ok; auto].
Qed.
Example C71_classify_live : isnan f16 32256 = true /\ isinf f16 64512 = true /\ isfinite f16 31743 = true /\ fabs f16 64512 = 31744.
Proof. repeat split. Qed.
(** The integer abs is right for every value but the least, which it returns unchanged. *)
Theorem C71_iabs_partial : forall w a, 0 < w -> - 2 ^ (w - 1) < a < 2 ^ (w - 1) -> iabs w a = Z.abs a.
Proof. exact iabs_ok. Qed.
Theorem C71_iabs_refuted : forall w, 0 < w -> iabs w (- 2 ^ (w - 1)) = - 2 ^ (w - 1).
Proof. exact iabs_min. Qed.
Example C71_iabs_live : iabs 8 (-5) = 5 /\ iabs 8 (-128) = -128. Proof. split; reflexivity. Qed.

(** ldexp of a number that becomes too large is not infinity: the exponent runs into the sign bit.  2^0 * 2^n with n one more than the
    largest exponent is -0. *)
Theorem C71_ldexp_overflow_refuted : forall F, format F -> ldexp F false (bits_one F) (emx F + 1) = 2 ^ (width F - 1).
Proof. intros F [->|[->| ->]]; reflexivity. Qed.
(** If it becomes too small the result is not zero or denormal either: 2^0 * 2^-2^(ew-1) is minus infinity. *)
Theorem C71_ldexp_underflow_refuted : forall F, format F -> let y := ldexp F false (bits_one F) (- emx F) in infinite F y /\ negative F y.
Proof. intros F [->|[->| ->]]; unfold infinite, negative; repeat split; vm_compute; congruence. Qed.
(** ldexp(infinity, -1) is finite. *)
Theorem C71_ldexp_infinity_refuted : forall F, format F -> infinite F (emask F) /\ finite F (ldexp F false (emask F) (-1)).
Proof. intros F [->|[->| ->]]; unfold infinite, finite; repeat split; vm_compute; congruence. Qed.
(** ldexp of the smallest denormal number by 1 is not twice that number. *)
Theorem C71_ldexp_denormal_refuted : forall F, format F -> units F 1 = 1 /\ units F (ldexp F false 1 1) = 2 ^ mw F + 1.
Proof. intros F [->|[->| ->]]; split; reflexivity. Qed.
(** With --math-lib=fast ldexp(0, 1) is not 0. *)
Theorem C71_ldexp_fast_zero_refuted : forall F, format F -> units F (ldexp F true 0 1) = 2 ^ mw F.
Proof. intros F [->|[->| ->]]; reflexivity. Qed.
(** frexp(0) is not 0 but 1/2 with a negative exponent, and frexp of infinity is a number. *)
Theorem C71_frexp_special_refuted : forall F, format F ->
  (let '(r, p) := frexp F 0 in 2 * units F r = unit1 F /\ p = 2 - emx F) /\ (let '(r, p) := frexp F (emask F) in 2 * units F r = unit1 F).
Proof. intros F [->|[->| ->]]; repeat split; reflexivity. Qed.
(** frexp of the smallest denormal number is wrong: r * 2^p is more than 2^mw times as large. *)
Theorem C71_frexp_denormal_refuted : forall F, format F -> let '(r, p) := frexp F 1 in ~ scaled p (units F 1) (units F r).
Proof. intros F [->|[->| ->]]; vm_compute; discriminate. Qed.

(** C72.  fmod for special arguments, whatever rcp and trunc do: NaN (with the sign of x) if x or y is NaN, y is zero or x is infinite and y
    finite; x if y is infinite and x is not; x if x is zero. *)
Theorem C72_special_partial : forall F rcp trunc x y, format F -> pattern F x -> pattern F y ->
  let r := fmod F rcp trunc x y in
  (not_a_number F x \/ not_a_number F y \/ units F y = 0 \/ (infinite F x /\ finite F y) -> pattern F r /\ not_a_number F r /\ (negative F r <-> negative F x)) /\
  (finite F x -> infinite F y -> r = x) /\
  (finite F x -> units F x = 0 -> finite F y -> units F y <> 0 -> r = x).
Proof. intros F rcp trunc x y HF. apply fmod_special. apply format_wf. exact HF. Qed.
Example C72_special_live : fmod f32 (frcp f32) (ftrunc f32) (2 ^ 31) (127 * 2 ^ 23) = 2 ^ 31 /\ not_a_number f32 (fmod f32 (frcp f32) (ftrunc f32) 5 0) /\
  fmod f32 (frcp f32) (ftrunc f32) (129 * 2 ^ 23 + 2 ^ 22) (* 6 *) (129 * 2 ^ 23) (* 4 *) = 128 * 2 ^ 23 (* 2 *).
Proof. unfold not_a_number. repeat split; vm_compute; congruence. Qed.

(** fmod(infinity, infinity) is infinity: that y is infinite is tested before that x is. *)
Theorem C72_infinity_refuted : forall F rcp trunc, format F -> fmod F rcp trunc (emask F) (emask F) = emask F.
Proof. intros F rcp trunc [->|[->| ->]]; reflexivity. Qed.
(** For finite numbers the remainder can be wrong even if rcp is correctly rounded and trunc exact, because x * rcp(y) can fall below a
    whole number: fmod(41.0, 41.0) is 41 and not 0. *)
Theorem C72_remainder_refuted : let x := 132 * 2 ^ 23 + 9 * 2 ^ 18 in
  units f32 x = 41 * unit1 f32 /\ fmod f32 (frcp f32) (ftrunc f32) x x = x.
Proof. split; reflexivity. Qed.
(** Or rise to a whole number: for the number x just below y the result can be negative. *)
Theorem C72_sign_refuted : exists x y, finite f32 x /\ finite f32 y /\ 0 < units f32 x < units f32 y /\
  units f32 (fmod f32 (frcp f32) (ftrunc f32) x y) < 0.
Proof. exists (129 * 2 ^ 23 + 3 * 2 ^ 21 - 1), (129 * 2 ^ 23 + 3 * 2 ^ 21). (* 7 *) unfold finite. repeat split; vm_compute; congruence. Qed.
(** For a denormal y the reciprocal is infinite: fmod(1, 2^-149) is infinite. *)
Theorem C72_denormal_refuted : infinite f32 (fmod f32 (frcp f32) (ftrunc f32) (127 * 2 ^ 23) 1).
Proof. unfold infinite. split; vm_compute; congruence. Qed.
(** The varying version keeps nan_bits in a uniform variable, so a lane with a positive x gets a negative NaN if another lane's x is negative. *)
Theorem C72_lanes_refuted : forall F rcp trunc, format F -> let one := bits_one F in let minus_one := bits_one F + 2 ^ (width F - 1) in
  exists a b, fmod_varying F rcp trunc [(one, 0)] = [a] /\ fmod_varying F rcp trunc [(one, 0); (minus_one, 0)] = [b; b] /\ ~ negative F a /\ negative F b.
Proof.
  intros F rcp trunc [->|[->| ->]]; eexists; eexists; (split; [reflexivity|]); (split; [reflexivity|]); unfold negative; split; vm_compute; congruence.
Qed.

(** C73.  On every target, for float and double, uniform and varying: min and max of two numbers (infinities included) are one of the two,
    and not above, respectively not below, either... *)
Definition variants (t : mm_target) : list (fmt * minmax) :=
  [(f32, u_float (mm_table t)); (f32, v_float (mm_table t)); (f64, u_double (mm_table t)); (f64, v_double (mm_table t)); (f16, mm_half); (f64, mm_xe_double)].
Lemma variants_ok : forall t F mm, In (F, mm) (variants t) -> wf F /\ smaller F mm /\ larger F mm.
Proof.
  intros t F mm H.
  assert (Q : format F /\ In mm [mm_x86; mm_avx; mm_unord; mm_num; mm_imum]).
  { unfold format. destruct t; cbn in H; repeat (destruct H as [H|H]; [injection H as <- <-; cbn; tauto|]); contradiction. }
  destruct Q as [HF HM]. assert (W := format_wf F HF). split; [exact W|]. apply mm_ok; assumption.
Qed.
Theorem C73_minmax : forall t F mm, In (F, mm) (variants t) -> forall a b, number F a -> number F b ->
  (let m := fst mm F a b in (m = a \/ m = b) /\ value_le F m a /\ value_le F m b) /\
  (let m := snd mm F a b in (m = a \/ m = b) /\ value_le F a m /\ value_le F b m).
Proof.
  intros t F mm H a b Na Nb. destruct (variants_ok t F mm H) as (W & S & L).
  destruct (S a b Na Nb) as (_ & ? & ? & ?). destruct (L a b Na Nb) as (_ & ? & ? & ?). auto 10.
Qed.
(** ...and clamp gives a value in the range, the given one if that is in it. *)
Theorem C73_clamp : forall t F mm, In (F, mm) (variants t) -> forall v low high, number F v -> number F low -> number F high -> value_le F low high ->
  let r := clamp mm F v low high in
  number F r /\ (r = v \/ r = low \/ r = high) /\ value_le F low r /\ value_le F r high /\
  (value_le F low v -> value_le F v high -> same_value F r v).
Proof. intros t F mm H v low high Nv Nl Nh LH. destruct (variants_ok t F mm H) as (W & S & L). exact (clamp_ok F W mm v low high S L Nv Nl Nh LH). Qed.
Example C73_live : In (f32, mm_avx) (variants MAvx) /\ number f32 2139095040 (* infinity *) /\ fst mm_avx f32 2139095040 5 = 5 /\
  clamp mm_avx f32 2139095040 (127 * 2 ^ 23) (128 * 2 ^ 23) = 128 * 2 ^ 23.
Proof. split; [cbn; tauto|]. unfold number, pattern, not_a_number. repeat split; vm_compute; try congruence. intros [_ H]. apply H. reflexivity. Qed.
(** On the SSE targets a NaN makes min and max return their second argument, uniform and varying alike. *)
Theorem C73_sse_nan_partial : forall F mm, In (F, mm) (variants MSse) -> forall a b, pattern F a -> pattern F b -> not_a_number F a \/ not_a_number F b ->
  fst mm F a b = b /\ snd mm F a b = b.
Proof.
  intros F mm H a b Pa Pb NN. destruct (variants_ok MSse F mm H) as (W & _ & _).
  assert (E : mm = mm_x86) by (cbn in H; repeat (destruct H as [H|H]; [injection H as _ <-; reflexivity|]); contradiction). subst mm.
  unfold mm_x86, min_olt, max_ogt. cbn [fst snd]. destruct NN as [NN|NN].
  - destruct (flt_nan F W a b Pa NN) as (-> & -> & _). auto.
  - destruct (flt_nan F W b a Pb NN) as (-> & -> & _). auto.
Qed.
(** On AVX and AVX-512 the uniform and the varying max disagree on max(1, NaN): 1 and NaN. *)
Theorem C73_avx_nan_refuted : forall F, format F -> let one := bits_one F in let nan := encode F S754_nan in
  snd mm_avx F one nan = one /\ snd mm_x86 F one nan = nan.
Proof. intros F [->|[->| ->]]; split; reflexivity. Qed.
(** So do the uniform and the varying clamp of NaN: the one gives the upper bound, the other the lower. *)
Theorem C73_avx_clamp_refuted : forall F, format F -> let nan := encode F S754_nan in
  clamp mm_avx F nan 0 (bits_one F) = bits_one F /\ clamp mm_x86 F nan 0 (bits_one F) = 0.
Proof. intros F [->|[->| ->]]; split; reflexivity. Qed.
(** On avx2-i16x16, avx2-i8x32, avx512skx-x32, avx512skx-x64 and wasm the uniform float versions return the first argument and the varying
    ones the second if one of them is NaN. *)
Theorem C73_wide_nan_refuted : let one := bits_one f32 in let nan := encode f32 S754_nan in
  u_float (mm_table MWide) = mm_unord /\ u_float (mm_table MWasm) = mm_unord /\
  fst mm_unord f32 one nan = one /\ snd mm_unord f32 one nan = one /\ fst mm_x86 f32 one nan = nan /\ snd mm_x86 f32 one nan = nan.
Proof. repeat split; reflexivity. Qed.
(** double: on avx512skx-x16-nozmm the varying min ignores a NaN that the uniform min returns, and on wasm it is the other way round. *)
Theorem C73_double_nan_refuted : let one := bits_one f64 in let nan := encode f64 S754_nan in
  fst (u_double (mm_table MAvx512nozmm)) f64 one nan = nan /\ fst (v_double (mm_table MAvx512nozmm)) f64 one nan = one /\
  fst (u_double (mm_table MWasm)) f64 nan one = one /\ fst (v_double (mm_table MWasm)) f64 nan one = nan.
Proof. repeat split; reflexivity. Qed.

Print Assumptions C71_ldexp_partial.
Print Assumptions C71_frexp_partial.
Print Assumptions C71_round_trip.
Print Assumptions C71_abs.
Print Assumptions C71_classify.
Print Assumptions C72_special_partial.
Print Assumptions C73_minmax.
Print Assumptions C73_clamp.
