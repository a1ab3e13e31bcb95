(** C82: the messages of the compiler are complete, and they agree with its outcome. *)
From Coq Require Import ZArith List Bool Ascii String Lia.
From Verif Require Import DiagModel DiagSpec DiagProofs.
Import ListNotations.
Local Open Scope list_scope.
Local Open Scope nat_scope.
Local Notation length := List.length.

(** *** Breaking a message into lines *)

(** White space, for the words of a message, is that of the C language: blank, tab, line feed, vertical tab, form feed and
    carriage return. *)
Theorem C82_white_space c : is_space c = true <-> In c [" "; "009"; "010"; "011"; "012"; "013"]%char.
Proof.
  split; [|intros H; repeat (destruct H as [<-|H]; [reflexivity|]); destruct H].
  destruct c as [[] [] [] [] [] [] [] []]; intros H; vm_compute in H; try discriminate H; cbn; tauto.
Qed.
Print Assumptions C82_white_space.

(** Every message is printed with the same words in the same order, whatever the width of the terminal. *)
Theorem C82_words s indent columns : words (print_with_word_breaks s indent columns) = words s.
Proof. apply print_words. Qed.
Print Assumptions C82_words.
Example C82_words_example :
  words (print_with_word_breaks (of_string "a.ispc:1:2: Error: Type ""varying int32"" doesn't match, and it is a long message") 8 40) =
  map of_string ["a.ispc:1:2:"; "Error:"; "Type"; """varying"; "int32"""; "doesn't"; "match,"; "and"; "it"; "is"; "a"; "long"; "message"]%string
  /\ length (lines (print_with_word_breaks (of_string "a.ispc:1:2: Error: Type ""varying int32"" doesn't match, and it is a long message") 8 40)) = 4.
Proof. vm_compute. auto. Qed.

(** A message without line breaks and colours: no line is wider than the terminal, unless it is a single word after the
    indentation.  Missing: messages with line breaks, see C82_width_refuted. *)
Theorem C82_width_partial s indent columns l : ~ In newline s -> ~ In escape s -> In l (lines (print_with_word_breaks s indent columns)) ->
  length (trim l) <= Nat.max 40 (columns - 2) \/ exists before w, trim l = before ++ w /\ no_space w /\ length before <= indent.
Proof.
  intros N E I0. assert (F := wrap_fits (Nat.max 40 (columns - 2)) indent (S (length s)) s [] (Nat.lt_succ_diag_r _) N E).
  rewrite Forall_forall in F. apply F; [left; cbn; lia|exact I0].
Qed.
Print Assumptions C82_width_partial.
Example C82_width_example : let s := of_string "a.ispc:1:2: Error: a message that does not fit into a line of forty columns" in
  ~ In newline s /\ ~ In escape s /\
  map (fun l => length (trim l)) (lines (print_with_word_breaks s 8 40)) = [38; 36; 15; 0].
Proof. cbn zeta. vm_compute. repeat split; auto; intros H; repeat (destruct H as [H|H]; [discriminate|]); destruct H. Qed.

(** The blanks at the beginning of a line of the message are not counted: the line is wider than the terminal although it
    could have been broken. *)
Theorem C82_width_refuted : exists s indent columns l, In l (lines (print_with_word_breaks s indent columns)) /\
  ~ (length (trim l) <= Nat.max 40 (columns - 2) \/ exists before w, trim l = before ++ w /\ no_space w /\ length before <= indent).
Proof.
  exists (newline :: spaces 30 ++ of_string "candidate function"), 0, 40, (spaces 30 ++ of_string "candidate function ").
  split; [right; left; reflexivity|]. intros [H|(b & w & E & N & L)]; [vm_compute in H; lia|].
  destruct b as [|c b]; [|cbn in L; lia]. cbn [app] in E. subst w. inversion N. discriminate.
Qed.
Print Assumptions C82_width_refuted.

(** A line break of the message is a line break of the output: what stands before it is printed before it, as without the rest of
    the message, and what stands after it comes after it.  Missing: colours, and white space before the line break, see
    C82_newline_lost_refuted. *)
Theorem C82_newline_partial s1 s2 indent columns : ~ In escape s1 -> (s1 = [] \/ exists a c, s1 = a ++ [c] /\ is_space c = false) ->
  exists out1 out2, print_with_word_breaks s1 indent columns = out1 ++ [newline] /\
    print_with_word_breaks (s1 ++ newline :: s2) indent columns = out1 ++ newline :: out2 /\ words out2 = words s2.
Proof.
  intros E W. unfold print_with_word_breaks.
  destruct (wrap_break (Nat.max 40 (columns - 2)) indent s2 (S (length (s1 ++ newline :: s2))) 0 s1) as (o1 & o2 & A & B & C); auto.
  exists o1, o2. rewrite <- A, B. repeat split; auto. apply wrap_fuel; [|rewrite app_length]; lia.
Qed.
Print Assumptions C82_newline_partial.
Example C82_newline_example : print_with_word_breaks (of_string "one" ++ newline :: of_string "two") 2 80 = of_string "one " ++ newline :: of_string "  two " ++ [newline].
Proof. reflexivity. Qed.

(** White space before a line break removes the line break. *)
Theorem C82_newline_lost_refuted : exists s1 s2, ~ In escape s1 /\
  ~ exists out1 out2, print_with_word_breaks (s1 ++ newline :: s2) 0 80 = out1 ++ newline :: out2 /\ words out1 = words s1 /\ words out2 = words s2.
Proof.
  exists (of_string "one "), (of_string "two"). split; [intros H; repeat (destruct H as [H|H]; [discriminate|]); destruct H|].
  change (print_with_word_breaks _ 0 80) with (of_string "one two " ++ [newline]). intros (o1 & o2 & E & A & B).
  assert (X : o2 = []).
  { do 9 (destruct o1 as [|? o1]; cbn in E; [congruence || (injection E as E; congruence)|injection E as _ E]). destruct o1; discriminate. }
  subst o2. discriminate.
Qed.
Print Assumptions C82_newline_lost_refuted.

(** *** Which messages are printed, and when the compiler fails *)

(** The compiler fails exactly if there was an error, or with --werror a warning that is not turned off. *)
Theorem C82_fails decimal fl ig fs : NoDup (map fst ig) -> fails (report_all decimal (options fl) ig fs) = true <-> exists f, In f fs /\ fatal fl ig f = true.
Proof. intros N. now apply fails_iff. Qed.
Print Assumptions C82_fails.

(** A text is printed exactly if it is the message of a finding that is to be shown.  With --error-limit=n an error is shown if
    less than n were counted before it. *)
Theorem C82_printed decimal fl ig fs t : NoDup (map fst ig) -> In t (printed (report_all decimal (options fl) ig fs)) <->
  exists before f after, fs = before ++ f :: after /\ shown fl ig before f = true /\ t = message decimal fl f.
Proof. intros N. now apply printed_iff. Qed.
Print Assumptions C82_printed.

(** No message is printed twice, and what was printed does not depend on what is found later. *)
Theorem C82_order decimal fl ig fs gs : NoDup (map fst ig) -> NoDup (printed (report_all decimal (options fl) ig fs)) /\
  exists rest, printed (report_all decimal (options fl) ig (fs ++ gs)) = printed (report_all decimal (options fl) ig fs) ++ rest.
Proof. intros N. split; [now apply printed_nodup|now apply printed_prefix]. Qed.
Print Assumptions C82_order.

(** If the compiler fails, it says why.  Missing: --woff together with --werror, see C82_silent_failure_refuted. *)
Theorem C82_no_silent_failure_partial decimal fl ig fs : NoDup (map fst ig) -> given fl Quiet = false -> limit_of fl <> Some 0%Z ->
  given fl Woff && given fl Werror = false -> fails (report_all decimal (options fl) ig fs) = true -> printed (report_all decimal (options fl) ig fs) <> [].
Proof. intros N. now apply not_silent. Qed.
Print Assumptions C82_no_silent_failure_partial.

Definition at_line (name : string) (first last : Z) : pos := {| p_name := of_string name; p_first := first; p_last := last; p_column := 5 |}.
Definition found sev p msg : finding := {| f_sev := sev; f_pos := p; f_msg := of_string msg |}.
Definition digit (z : Z) : text := [ascii_of_nat (48 + Z.to_nat z)].
Example C82_example :
  let ig := [(3%Z, of_string "a.ispc", true); (4%Z, of_string "a.ispc", false)] in
  let fs := [found SWarning (at_line "a.ispc" 3 3) "w"; found SPerf (at_line "a.ispc" 3 3) "p"; found SWarning (at_line "a.ispc" 4 4) "w";
             found SError (at_line "a.ispc" 5 5) "e"; found SError (at_line "a.ispc" 5 5) "e"; found SError (at_line "a.ispc" 6 6) "e"] in
  let fl := [ErrorLimit 2; WnoPerf] in
  NoDup (map fst ig) /\ given fl Quiet = false /\ limit_of fl <> Some 0%Z /\ given fl Woff && given fl Werror = false /\
  fails (report_all digit (options fl) ig fs) = true /\
  printed (report_all digit (options fl) ig fs) = map of_string ["a.ispc:3:5: Warning: w"; "a.ispc:5:5: Error: e"]%string.
Proof. cbn zeta. repeat split; try reflexivity; [|discriminate]. repeat constructor; cbn; intros H; repeat (destruct H as [H|H]; [discriminate|]); destruct H. Qed.

(** With --woff and --werror a warning makes the compiler fail, and nothing is printed. *)
Theorem C82_silent_failure_refuted : exists fl fs, given fl Quiet = false /\ limit_of fl = None /\
  fails (report_all digit (options fl) [] fs) = true /\ printed (report_all digit (options fl) [] fs) = [].
Proof. exists [Woff; Werror], [found SWarning (at_line "a.ispc" 3 3) "w"]. repeat split. Qed.
Print Assumptions C82_silent_failure_refuted.

(** --quiet, which only suppresses the output, changes the outcome: with --werror a performance warning makes the compiler fail
    only without --quiet. *)
Theorem C82_quiet_refuted : exists fl fs, fails (report_all digit (options fl) [] fs) = true /\ fails (report_all digit (options (fl ++ [Quiet])) [] fs) = false.
Proof. exists [Werror], [found SPerf (at_line "a.ispc" 3 3) "p"]. split; reflexivity. Qed.
Print Assumptions C82_quiet_refuted.
(** Apart from that --quiet does not change the outcome. *)
Theorem C82_quiet_partial decimal fl ig fs : NoDup (map fst ig) -> (forall f, In f fs -> f_sev f <> SPerf) ->
  fails (report_all decimal (options (fl ++ [Quiet])) ig fs) = fails (report_all decimal (options fl) ig fs) /\ printed (report_all decimal (options (fl ++ [Quiet])) ig fs) = [].
Proof.
  intros N P. split.
  - apply eq_iff_eq_true. rewrite !fails_iff by auto. split; intros (f & I0 & F); exists f; (split; [auto|]); unfold fatal in *; specialize (P f I0);
      destruct (f_sev f); auto; try congruence; rewrite given_app in *; cbn [flag_eqb] in *; rewrite orb_false_r in *; auto.
  - destruct (printed (report_all decimal (options (fl ++ [Quiet])) ig fs)) as [|t r] eqn:E; auto. exfalso.
    assert (X : In t (printed (report_all decimal (options (fl ++ [Quiet])) ig fs))) by (rewrite E; left; auto).
    apply printed_iff in X as (b & f & a & _ & S0 & _); auto. unfold shown in S0. rewrite given_app in S0. cbn [flag_eqb] in S0. rewrite orb_true_r in S0. discriminate.
Qed.
Print Assumptions C82_quiet_partial.
Example C82_quiet_example : fails (report_all digit (options [Quiet; Werror]) [] [found SWarning (at_line "a.ispc" 3 3) "w"]) = true.
Proof. reflexivity. Qed.

(** "#pragma ignore warning" turns off all warnings of the line after it and of that line only, "#pragma ignore warning(perf)"
    the performance warnings only.  Missing: findings that span lines, see C82_pragma_lines_refuted. *)
Theorem C82_pragma_partial decimal fl line file only_perf f : p_first (f_pos f) = p_last (f_pos f) -> f_sev f <> SError ->
  printed (report_all decimal (options fl) [(line, file, only_perf)] [f]) =
  if Z.eqb (p_first (f_pos f)) line && text_eqb file (p_name (f_pos f)) && (negb only_perf || is_perf f) then [] else printed (report_all decimal (options fl) [] [f]).
Proof.
  intros E S0. assert (N : forall x : Z * text * bool, NoDup (map fst [x])) by (intros; repeat constructor; intros []).
  pose proof (printed_snoc decimal fl [(line, file, only_perf)] (N _) [] f) as A. pose proof (printed_snoc decimal fl [] (NoDup_nil _) [] f) as B.
  cbn [app] in A, B. rewrite A, B. clear A B. unfold shown, pragma_off. cbn [existsb]. rewrite E, (Z.eqb_sym line), !orb_false_r.
  destruct (f_sev f); [congruence| |]; destruct (_ && _ && (negb only_perf || is_perf f)); cbn [negb]; rewrite ?andb_false_r; cbn; auto.
Qed.
Print Assumptions C82_pragma_partial.

(** A warning for an expression that goes on in the next line is not turned off by the pragma in front of it. *)
Theorem C82_pragma_lines_refuted : exists line file f, p_first (f_pos f) = line /\ p_name (f_pos f) = file /\ f_sev f = SWarning /\
  printed (report_all digit (options []) [(line, file, false)] [f]) <> [].
Proof. exists 3%Z, (of_string "a.ispc"), (found SWarning (at_line "a.ispc" 3 4) "w"). repeat split. discriminate. Qed.
Print Assumptions C82_pragma_lines_refuted.

(** There are no performance warnings for a user's file whose name ends in stdlib.ispc. *)
Theorem C82_stdlib_name_refuted : exists name, name <> of_string "stdlib.ispc" /\ forall decimal fl ig fs, NoDup (map fst ig) ->
  (forall f, In f fs -> f_sev f = SPerf /\ p_name (f_pos f) = name) -> printed (report_all decimal (options fl) ig fs) = [].
Proof.
  exists (of_string "mystdlib.ispc"). split; [discriminate|]. intros d fl ig fs N H.
  destruct (printed (report_all d (options fl) ig fs)) as [|t r] eqn:E; auto. exfalso.
  assert (X : In t (printed (report_all d (options fl) ig fs))) by (rewrite E; left; auto).
  apply printed_iff in X as (b & f & a & -> & S0 & _); auto. destruct (H f) as (A & B); [apply in_or_app; right; left; auto|].
  unfold shown, of_library in S0. rewrite A, B in S0. cbn in S0. rewrite !andb_false_r in S0. discriminate.
Qed.
Print Assumptions C82_stdlib_name_refuted.
