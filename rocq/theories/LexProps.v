(** * C44, C51, C52: what the scanner makes of a text *)
From Coq Require Import ZArith Lia Bool Ascii String List.
From Verif Require Import Bits TypesModel LexModel LexSpec LexProofs LexProofs2.
Import ListNotations.
Local Open Scope Z_scope.

(** ** C44 *)

(** A literal (not a decimal one of several digits starting with 0) has the first of its possible types that can
    hold its value, and that value; for a literal followed by three dots and without suffix, 2^31..2^32-1 is
    left out.  The literals left out, and those no type can hold, are the subject of the refutations below. *)
Theorem C44_value_and_type_partial : forall dots width s v un m suf u n t,
  numeral s v -> ~ leading_zero s -> unit_suffix un m -> type_suffix suf u n ->
  first_holds (v * m) (candidates dots width u n) t ->
  (dots = true -> u = false -> n = 0%nat -> ~ (2 ^ 31 <= v * m < 2 ^ 32)) ->
  integer_literal dots width (s ++ un ++ suf ++ (if dots then lit "..." else [])) = Some (t, v * m).
Proof. exact literal_spec. Qed.
Print Assumptions C44_value_and_type_partial.

Example C44_ex : integer_literal false 32 (lit "0xffGull") = Some (UINT64, 255 * 2 ^ 30) /\
  integer_literal false 8 (lit "200") = Some (UINT8, 200) /\ integer_literal true 32 (lit "0b101...") = Some (INT32, 5) /\
  numeral (lit "0x1f") 31 /\ type_suffix (lit "Ul") true 1 /\
  first_holds 4294967296 (candidates false 32 false 0) INT64.
Proof.
  split; [reflexivity|]. split; [reflexivity|]. split; [reflexivity|]. split; [|split].
  - apply (hexadecimal "x"%char (lit "1f")); [left; reflexivity|]. apply (denotes_more 16 [("1")%char] 1 "f"%char 15); [|left; reflexivity | reflexivity].
    apply (denotes_one 16 "1"%char 1); [left; reflexivity | reflexivity].
  - exists (lit "U"), (lit "l"). split; [right; reflexivity|]. split; [|left; reflexivity].
    split; [reflexivity|]. split; [lia|]. repeat constructor.
  - unfold candidates. cbn [app Z.eqb Pos.eqb]. apply first_later; [cbn; lia|]. apply first_later; [cbn; lia|]. apply first_here. cbn. lia.
Qed.

(** Binary literals: exactly the ones that do not fit 64 bits are warned about, and those wrap. *)
Theorem C44_binary_warning : forall s v, denotes 2 s v ->
  lParseBinary 0 false s = (v mod 2 ^ 64, 2 ^ 64 <=? v, []).
Proof. intros s v H. rewrite <- (app_nil_r s) at 1. apply binary_denotes; [assumption | exact I]. Qed.
Print Assumptions C44_binary_warning.
Example C44_binary_warning_ex : denotes 2 (lit "10") 2.
Proof. apply (denotes_more 2 [("1")%char] 1 "0"%char 0); [apply (denotes_one 2 "1"%char 1) | |]; try (left; reflexivity); reflexivity. Qed.

(** A literal with the suffix l or ll, with or without u, has the type the suffix asks for whatever its value; its value
    is reduced modulo the size of that type. *)
Theorem C44_suffix_decides dots width s v un m suf u n : numeral s v -> ~ leading_zero s -> unit_suffix un m -> type_suffix suf u n ->
  n <> 0%nat -> v * m < 2 ^ 64 ->
  exists r, integer_literal dots width (s ++ un ++ suf ++ (if dots then lit "..." else [])) = Some (fst (asked u n), r) /\
    reduced u (snd (asked u n)) (v * m) r.
Proof. exact (suffix_spec dots width s v un m suf u n). Qed.
Print Assumptions C44_suffix_decides.
Example C44_suffix_ex : integer_literal false 8 (lit "3Gl") = Some (INT32, -1073741824) /\ reduced false 32 (3 * 2 ^ 30) (-1073741824) /\
  integer_literal false 8 (lit "5ULL") = Some (UINT64, 5).
Proof. split; [reflexivity|]. split; [|reflexivity]. split; [exists 1; reflexivity|]. split; [discriminate|reflexivity]. Qed.

(** Decimal literals that start with 0 are read as octal, or trip an assertion. *)
Theorem C44_octal_refuted : numeral (lit "010") 10 /\ integer_literal false 32 (lit "010") = Some (INT32, 8) /\
  numeral (lit "08") 8 /\ integer_literal false 32 (lit "08") = None.
Proof.
  assert (D0 : denotes 10 [("0")%char] 0) by (apply (denotes_one 10 "0"%char 0); [left; reflexivity | reflexivity]).
  split; [|split; [reflexivity|]; split; [|reflexivity]]; apply decimal.
  - apply (denotes_more 10 (lit "01") 1 "0"%char 0); [|left; reflexivity | reflexivity].
    apply (denotes_more 10 [("0")%char] 0 "1"%char 1); [assumption | left; reflexivity | reflexivity].
  - apply (denotes_more 10 [("0")%char] 0 "8"%char 8); [assumption | left; reflexivity | reflexivity].
Qed.
Print Assumptions C44_octal_refuted.

(** Literals that no permitted type can hold are not rejected: they saturate, wrap or change sign. *)
Theorem C44_too_big_refuted :
  integer_literal false 32 (lit "18446744073709551616") = Some (UINT64, 18446744073709551615) /\
  integer_literal false 32 (lit "17179869184G") = Some (INT32, 0) /\
  integer_literal false 32 (lit "4294967295l") = Some (INT32, -1) /\
  integer_literal false 32 (lit "18446744073709551615ll") = Some (INT64, -1) /\
  integer_literal true 32 (lit "3000000000...") = Some (INT32, -1294967296).
Proof. repeat split; vm_compute; reflexivity. Qed.
Print Assumptions C44_too_big_refuted.

(** ** C51 *)

Theorem C51_strings_partial : forall s t rest, spells false s t ->
  lStringConst (S (length s)) (s ++ """"%char :: rest) = Some t.
Proof. intros s t rest H. apply string_spec; [assumption|]. auto. Qed.
Print Assumptions C51_strings_partial.
Example C51_ex : lStringConst 20 (lit "a\n\101b\""" ++ [""""%char]) = Some [("a")%char; ascii_of_nat 10; "A"%char; "b"%char; """"%char] /\
  spells false (lit "\12g") (ascii_of_nat 10 :: lit "g").
Proof.
  split; [reflexivity|]. apply (spells_octal false (lit "12") 10 (lit "g") (lit "g")); [|lia| |].
  - apply (denotes_more 8 [("1")%char] 1 "2"%char 2); [apply (denotes_one 8 "1"%char 1)| |]; try (left; reflexivity); reflexivity.
  - intros (c & r & v & E & D). injection E as <- <-. destruct (denotes_cons_nonempty _ _ _ D) as (c & r' & d & E & Dg & L).
    injection E as <- <-. apply digit_val_spec in Dg. discriminate Dg.
  - apply spells_plain; [discriminate | discriminate | constructor].
Qed.

(** A hexadecimal escape gives a zero character, and its digits are then taken as plain text. *)
Theorem C51_hex_escape_refuted : spells true (lit "\x41") (lit "A") /\
  lStringConst 10 (lit "\x41" ++ [""""%char]) = Some (ascii_of_nat 0 :: lit "x41").
Proof.
  split; [|reflexivity].
  apply (spells_hex true (lit "41") 65 [] []); [reflexivity | | lia | | constructor].
  - apply (denotes_more 16 [("4")%char] 4 "1"%char 1); [|left; reflexivity | reflexivity].
    apply (denotes_one 16 "4"%char 4); [left; reflexivity | reflexivity].
  - intros (? & ? & ? & H & _). discriminate H.
Qed.
Print Assumptions C51_hex_escape_refuted.

(** ** C52 *)

Theorem C52_c_comment : forall body rest n, ~ contains (lit "*/") (body ++ ["*"%char]) -> ~ In (ascii_of_nat 0) body ->
  lCComment nul n (body ++ lit "*/" ++ rest) = Some (rest, (n + line_ends body)%nat).
Proof.
  intros body rest n H Z. apply comment_some; [|assumption]. intros (a & b & E).
  destruct a as [|x a]; [discriminate E|]. injection E as _ E. apply H. exists a, b. exact E.
Qed.
Print Assumptions C52_c_comment.
Theorem C52_unterminated_comment : forall s n, ~ contains (lit "*/") s -> lCComment nul n s = None.
Proof.
  intros s n H. apply comment_none. intros (a & b & E).
  destruct a as [|x a]; [discriminate E|]. injection E as _ E. apply H. exists a, b. exact E.
Qed.
Print Assumptions C52_unterminated_comment.
Example C52_ex : lCComment nul 0 (lit "/ **/ x") = Some (lit " x", 0%nat) /\ lCComment nul 0 (lit "/ * /") = None.
Proof. split; reflexivity. Qed.

Theorem C52_line_comment : forall body rest n, ~ In (ascii_of_nat 10) body -> ~ In (ascii_of_nat 0) body ->
  lCppComment n (body ++ ascii_of_nat 10 :: rest) = (rest, S n) /\ lCppComment n body = ([], n).
Proof. intros body rest n H Z. split; [apply cpp_comment | apply cpp_comment_end]; assumption. Qed.
Print Assumptions C52_line_comment.
Example C52_line_comment_ex : lCppComment 3 (lit "abc" ++ ascii_of_nat 10 :: lit "d") = (lit "d", 4%nat).
Proof. reflexivity. Qed.

Theorem C52_pragma_line : forall c body rest, ~ In (ascii_of_nat 10) (c :: body) ->
  exists fuel, pragma_line fuel c (body ++ ascii_of_nat 10 :: rest) = Some rest.
Proof. intros c body rest H. exists (S (S (length body))). apply pragma_ok; [assumption | lia]. Qed.
Print Assumptions C52_pragma_line.
Example C52_pragma_line_ex : ~ In (ascii_of_nat 10) (lit "unroll 4").
Proof. intros H. repeat (destruct H as [H | H]; [discriminate H|]). destruct H. Qed.

(** A #pragma on a last line without a line end is never finished, whatever the number of steps. *)
Theorem C52_pragma_refuted : forall c body, ~ In (ascii_of_nat 10) (c :: body) ->
  ~ exists fuel rest, pragma_line fuel c body = Some rest.
Proof. intros c body H (fuel & rest & E). rewrite (pragma_hangs fuel c body H) in E. discriminate E. Qed.
Print Assumptions C52_pragma_refuted.
