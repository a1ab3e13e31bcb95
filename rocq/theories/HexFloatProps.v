(** * C53: hexadecimal floating-point literals *)
From Coq Require Import ZArith Lia Bool Ascii String List SpecFloat.
From Verif Require Import TypesModel LexModel LexSpec HexFloatModel HexFloatSpec HexFloatProofs.
Import ListNotations.
Local Open Scope Z_scope.

(** With at most 13 digits after the point and an exponent in the normal range, the double is exactly
    the number written, down to denormal results. *)
Theorem C53_hex_float_exact_partial : forall c l frac n f p s e rest,
  leading c l -> fraction_part frac n f -> (p = "p" \/ p = "P")%char -> exponent_part s e -> ends_here rest ->
  (n <= 13)%nat -> -1022 <= e <= 1023 ->
  exists x, lParseHexFloat (c :: frac ++ p :: s ++ rest) = Some x /\
    is_exactly x (l * 16 ^ Z.of_nat n + f) (e - 4 * Z.of_nat n).
Proof. exact hex_float_spec. Qed.
Print Assumptions C53_hex_float_exact_partial.
Example C53_ex : lParseHexFloat (lit "1.921fb54442d18p+1d") = Some (S754_finite false 7074237752028440 (-51)) /\
  exponent_part (lit "-12") (-12) /\ ends_here (lit "d").
Proof.
  split; [vm_compute; reflexivity|]. split.
  - exists (lit "12"), 12. split; [|right; split; reflexivity].
    apply (denotes_more 10 [("1")%char] 1 "2"%char 2); [apply (denotes_one 10 "1"%char 1)| |]; try (left; reflexivity); reflexivity.
  - intros (c & r & v & E & D). injection E as <- <-. inversion D as [? d Dg L | s v' ? d H Dg L E]; subst.
    + apply LexProofs.digit_val_spec in Dg. cbn in Dg. injection Dg as Dg. lia.
    + destruct (LexProofs.denotes_cons_nonempty _ _ _ H) as (? & ? & ? & -> & _). apply (f_equal (@List.length ascii)) in E. rewrite app_length in E. cbn in E. lia.
Qed.

(** 2^-1030 is a double, but the literal for it gives 0; and exponents are taken modulo 2^32. *)
Theorem C53_small_exponents_refuted :
  lParseHexFloat (lit "1p-1030") = Some (S754_zero false) /\
  is_exactly (S754_finite false (2 ^ 44) (-1074)) 1 (-1030) /\
  lParseHexFloat (lit "1p4294967296") = Some (S754_finite false (2 ^ 52) (-52)).
Proof. split; [|split; [split|]]; vm_compute; reflexivity. Qed.
Print Assumptions C53_small_exponents_refuted.
