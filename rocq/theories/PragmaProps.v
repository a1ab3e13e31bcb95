(** C83: pragmas mean what the guide says, and positions after them are right. *)
From Coq Require Import ZArith List Bool Ascii String Lia.
From Verif Require Import PragmaModel PragmaSpec PragmaProofs.
Import ListNotations.
Local Open Scope list_scope.
Local Open Scope Z_scope.

(** "#pragma unroll COUNT", with any blanks: the loop is unrolled COUNT times.  Missing: counts that are not an int, see
    C83_large_count_refuted. *)
Theorem C83_unroll_count_partial b1 b2 s b3 : blanks b1 -> blanks b2 -> blanks b3 -> number s -> value s < 2 ^ 31 ->
  consume (b1 ++ of_string "unroll" ++ b2 ++ s ++ b3) = for_loop (UCount (value s)).
Proof. intros. rewrite consume_unroll by auto. now apply unroll_number. Qed.
Print Assumptions C83_unroll_count_partial.

(** "#pragma unroll (COUNT)" *)
Theorem C83_unroll_parentheses_partial b1 b2 b3 s b4 b5 : blanks b1 -> blanks b2 -> blanks b3 -> blanks b4 -> blanks b5 -> number s -> value s < 2 ^ 31 ->
  consume (b1 ++ of_string "unroll" ++ b2 ++ of_string "(" ++ b3 ++ s ++ b4 ++ of_string ")" ++ b5) = for_loop (UCount (value s)).
Proof. intros. rewrite consume_unroll by auto. now apply unroll_paren. Qed.
Print Assumptions C83_unroll_parentheses_partial.
Example C83_unroll_example : blanks (of_string "  ") /\ number (of_string "16") /\ value (of_string "16") = 16 /\
  consume (of_string " unroll (16 )") = for_loop (UCount 16) /\ consume (of_string " unroll 16") = for_loop (UCount 16).
Proof.
  repeat split; try reflexivity; [repeat constructor; auto| |exists "1"%char, ["6"%char]; split; [reflexivity|discriminate]].
  repeat constructor; [exists 1%nat|exists 6%nat]; (split; [repeat constructor|reflexivity]).
Qed.

(** Counts in hexadecimal and in octal *)
Theorem C83_unroll_bases_partial b1 b2 s v b3 : blanks b1 -> blanks b2 -> blanks b3 -> 0 < v < 2 ^ 31 ->
  (numeral 16 s v -> consume (b1 ++ of_string "unroll" ++ b2 ++ of_string "0x" ++ s ++ b3) = for_loop (UCount v) /\
                     consume (b1 ++ of_string "unroll" ++ b2 ++ of_string "0X" ++ s ++ b3) = for_loop (UCount v)) /\
  (numeral 8 s v -> consume (b1 ++ of_string "unroll" ++ b2 ++ of_string "0" ++ s ++ b3) = for_loop (UCount v)).
Proof.
  intros B1 B2 B3 V. rewrite !consume_unroll by auto. split; [intros N; split|intros N].
  - apply (unroll_hex b2 "x" s v b3); auto.
  - apply (unroll_hex b2 "X" s v b3); auto.
  - apply (unroll_octal b2 s v b3); auto.
Qed.
Print Assumptions C83_unroll_bases_partial.
Example C83_unroll_bases_example : numeral 16 (of_string "1f") 31 /\ numeral 8 (of_string "17") 15.
Proof.
  split; [apply (numeral_snoc 16 (of_string "1") 1 "f" 15); [apply (numeral_snoc 16 [] 0 "1" 1); [constructor|reflexivity|lia]|reflexivity|lia]|].
  apply (numeral_snoc 8 (of_string "1") 1 "7" 7); [apply (numeral_snoc 8 [] 0 "1" 1); [constructor|reflexivity|lia]|reflexivity|lia].
Qed.

(** "#pragma unroll" and "#pragma nounroll" *)
Theorem C83_unroll b1 b2 : blanks b1 -> blanks b2 ->
  consume (b1 ++ of_string "unroll" ++ b2) = for_loop UFull /\ consume (b1 ++ of_string "nounroll" ++ b2) = for_loop UNo.
Proof.
  intros. rewrite consume_unroll, consume_nounroll by auto. unfold pragma_unroll, pragma_nounroll. rewrite !next_only by auto. auto.
Qed.
Print Assumptions C83_unroll.

(** The warnings of the following line are turned off exactly by "#pragma ignore warning", "#pragma ignore warning(all)" and
    "#pragma ignore warning(perf)"; these do nothing else, and there is no message for them. *)
Theorem C83_ignore l only_perf : e_ignore (consume l) = Some only_perf <-> ignores l only_perf.
Proof. split; [apply ignore_sound|]. intros H. now rewrite (ignore_complete l only_perf H). Qed.
Print Assumptions C83_ignore.
Theorem C83_ignore_effect l only_perf : ignores l only_perf -> consume l = for_line only_perf.
Proof. apply ignore_complete. Qed.
Print Assumptions C83_ignore_effect.
Example C83_ignore_example : ignores (of_string " ignore warning ( perf )") true.
Proof. apply (ignores_arg (of_string " ") (of_string " ") (of_string " ") (of_string " ") [] true); repeat constructor; auto. Qed.

(** A blank that is a tab after the argument is part of the argument. *)
Theorem C83_tab_refuted : exists b, blanks b /\ forall only_perf, ~ ignores (of_string " ignore warning(all" ++ b ++ of_string ")") only_perf /\
  e_notes (consume (of_string " ignore warning(all" ++ b ++ of_string ")")) = [BadArgument].
Proof.
  exists ["009"%char]. split; [constructor; [right; left; reflexivity|constructor]|]. intros op. split; [|reflexivity]. intros H. apply C83_ignore in H. discriminate.
Qed.
Print Assumptions C83_tab_refuted.

(** After any number of pragmas the line number is right.  Missing: those that the compiler does not know, see
    C83_unknown_line_refuted. *)
Theorem C83_lines_partial ls : (forall l, In l ls -> ~ In Unknown (e_notes (consume l)) /\ ~ In Undefined (e_notes (consume l))) ->
  fold_left (fun line l => line + e_lines (consume l)) ls 1 = 1 + Z.of_nat (List.length ls).
Proof.
  generalize 1 as n. induction ls as [|l ls IH]; intros n H; cbn [fold_left List.length]; [lia|]. rewrite IH by (intros; apply H; right; auto).
  destruct (H l (or_introl eq_refl)) as (A & B). destruct (lines_iff l) as [(E & _)|(_ & [E|E])]; [lia|rewrite E in A; exfalso; apply A; left; auto|rewrite E in B; exfalso; apply B; left; auto].
Qed.
Print Assumptions C83_lines_partial.
Example C83_lines_example : forall l, In l [of_string " unroll 4"; of_string " nounroll x"; of_string " ignore warning(none)"] ->
  ~ In Unknown (e_notes (consume l)) /\ ~ In Undefined (e_notes (consume l)).
Proof. intros l [<-|[<-|[<-|[]]]]; split; intros H; repeat (destruct H as [H|H]; [discriminate|]); destruct H. Qed.

(** After a pragma that is ignored with a warning the line numbers of all messages, and the lines for which pragmas turn off
    warnings, are too small by one. *)
Theorem C83_unknown_line_refuted : exists l, (forall x, In x (e_notes (consume l)) -> is_error x = false) /\ e_lines (consume l) = 0.
Proof. exists (of_string " ivdep"). split; [intros x [<-|[]]; reflexivity|reflexivity]. Qed.
Print Assumptions C83_unknown_line_refuted.

(** Counts are taken modulo 2^32: a large one means another one, without a message, or is said to be zero. *)
Theorem C83_large_count_refuted :
  (exists s, number s /\ value s = 4294967297 /\ consume (of_string " unroll " ++ s) = for_loop (UCount 1)) /\
  (exists s, number s /\ value s = 4294967296 /\ In ZeroCount (e_notes (consume (of_string " unroll " ++ s)))) /\
  (exists s, number s /\ value s = 2147483648 /\ consume (of_string " unroll " ++ s) = for_loop (UCount (-2147483648))).
Proof.
  assert (D : forall n, (n <= 9)%nat -> is_digit (ascii_of_nat (48 + n))) by (intros n L; exists n; auto).
  repeat split; [exists (of_string "4294967297")|exists (of_string "4294967296")|exists (of_string "2147483648")];
    (split; [split; [repeat constructor; first [exact (D 0%nat ltac:(lia))|exact (D 1%nat ltac:(lia))|exact (D 2%nat ltac:(lia))|exact (D 3%nat ltac:(lia))|exact (D 4%nat ltac:(lia))|exact (D 6%nat ltac:(lia))|exact (D 7%nat ltac:(lia))|exact (D 8%nat ltac:(lia))|exact (D 9%nat ltac:(lia))]|eexists; eexists; split; [reflexivity|discriminate]]|split; [reflexivity|]]); [reflexivity|left; reflexivity|reflexivity].
Qed.
Print Assumptions C83_large_count_refuted.

(** Words that begin with "unroll" are taken for unroll, with the count 0 and without a message, and so is what follows the
    count. *)
Theorem C83_prefix_refuted : consume (of_string " unroll_and_jam") = for_loop (UCount 0) /\ consume (of_string " unrolled") = for_loop (UCount 0) /\
  consume (of_string " unroll 4, 2") = for_loop (UCount 4) /\ consume (of_string " unroll(4) while") = for_loop (UCount 4).
Proof. repeat split. Qed.
Print Assumptions C83_prefix_refuted.

(** The count 0 is rejected, in every base. *)
Theorem C83_zero b1 b2 b3 s : blanks b1 -> blanks b2 -> blanks b3 -> In s (map of_string ["0"; "00"; "0x0"]%string) ->
  In ZeroCount (e_notes (consume (b1 ++ of_string "unroll" ++ b2 ++ s ++ b3))).
Proof.
  intros B1 B2 B3 I0. rewrite consume_unroll by auto. unfold pragma_unroll. rewrite next_blanks by auto.
  assert (X : next_valid b3 = []) by (now apply next_only).
  destruct I0 as [<-|[<-|[<-|[]]]]; destruct B3 as [|c r C B3]; try (left; reflexivity); destruct C as [->|[->| ->]]; cbn;
    repeat (destruct (text_eqb _ _) eqn:T; [apply text_eqb_iff in T; apply (f_equal (@List.length ascii)) in T; cbn in T; lia|clear T]); left; reflexivity.
Qed.
Print Assumptions C83_zero.
