(** C84: dependency files. *)
From Coq Require Import ZArith List Bool Ascii String.
From Verif Require Import DepsModel DepsSpec DepsProofs.
Import ListNotations.
Local Open Scope list_scope.

(** The name of every file survives the way from the preprocessor to the rule, if its characters are printable ones, tabs and newlines.
    Missing: quotes and all other bytes, see C84_quote_refuted and C84_not_ascii_refuted. *)
Theorem C84_names_partial :
  forall name, Forall (fun c => printable c = true /\ c <> quote \/ c = tab \/ c = newline) name ->
  unescape (up_to_quote (escape name ++ [quote])) = name.
Proof.
  intros name F. assert (C : forallb carried name = true).
  { apply forallb_forall. rewrite Forall_forall in F. intros c I0. unfold carried. destruct (F c I0) as [(P & Q)|[->| ->]]; [|reflexivity|reflexivity]. rewrite P. destruct (Ascii.eqb_spec c quote); [congruence|reflexivity]. }
  rewrite marker by exact C. apply unescape_escape, C.
Qed.
Print Assumptions C84_names_partial.
Example names_used : unescape (up_to_quote (escape (of_string "a\new file's.isph") ++ [quote])) = of_string "a\new file's.isph".
Proof. reflexivity. Qed.

(** A rule for make names the target and, exactly once, each of the files read and the source, which comes first; the files may be entered in any order and any number of times.
    Missing: names with characters that mean something to make, see C84_blank_refuted, and files named like those of the library, C84_library_name_refuted. *)
Theorem C84_rule_partial :
  forall target source files, plain target -> (forall s, source = Some s -> plain s) -> (forall f, In f files -> plain f) ->
  exists prerequisites,
    make_rule (rule target source (registered files)) = Some (target, prerequisites) /\
    NoDup prerequisites /\
    (forall f, In f prerequisites <-> source = Some f \/ In f files /\ ~ library f) /\
    (forall s, source = Some s -> hd_error prerequisites = Some s).
Proof.
  intros target source files T S0 P. destruct (registered_plain files P) as (E & ND & M). exists (listed source (registered files)).
  split; [|split; [|split]].
  - rewrite E at 1. apply make_rule_plain; auto. intros d I0. apply P, M, I0.
  - destruct source as [s|]; cbn [listed]; auto. constructor; [|now apply NoDup_filter]. rewrite filter_In. intros (_ & X). apply negb_true_iff in X. assert (text_eqb s s = true) by (now apply text_eqb_iff). congruence.
  - intros f. destruct source as [s|]; cbn [listed]; rewrite <- M; [|intuition discriminate]. cbn [In]. rewrite filter_In, negb_true_iff. destruct (text_eqb s f) eqn:Q.
    + apply text_eqb_iff in Q as ->. tauto.
    + assert (s <> f) by (intros ->; assert (text_eqb f f = true) by (now apply text_eqb_iff); congruence). intuition congruence.
  - intros s ->. reflexivity.
Qed.
Print Assumptions C84_rule_partial.
Lemma plain_text (s : string) : forallb (fun c => printable c && negb (existsb (Ascii.eqb c) (list_ascii_of_string " \:#$%*?[]~;=|&()'`<>!{}" ++ [quote]))) (of_string s) = true -> s <> EmptyString -> plain (of_string s).
Proof.
  intros F N. split; [destruct s; [congruence|discriminate]|]. rewrite Forall_forall. rewrite forallb_forall in F. intros c I0. specialize (F c I0). apply andb_true_iff in F as (A & B). split; auto. intros J. apply negb_true_iff in B.
  assert (existsb (Ascii.eqb c) (list_ascii_of_string " \:#$%*?[]~;=|&()'`<>!{}" ++ [quote]) = true) by (apply existsb_exists; exists c; split; [auto|apply Ascii.eqb_refl]). congruence.
Qed.
Example rule_used : make_rule (rule (of_string "a.o") (Some (of_string "a.ispc")) (registered (map of_string ["a.ispc"; "z.isph"; "a.ispc"; "b.isph"; "z.isph"]%string)))
  = Some (of_string "a.o", map of_string ["a.ispc"; "b.isph"; "z.isph"]%string)
  /\ (forall f, In f (map of_string ["a.ispc"; "z.isph"; "b.isph"]%string) -> plain f).
Proof. split; [reflexivity|]. intros f [<-|[<-|[<-|[]]]]; apply plain_text; (reflexivity || discriminate). Qed.

(** The text of the rule for all names that the preprocessor carries, blanks and backslashes included: after the target, the colon and the source each other file read stands once, by its own name, on a line of its own.
    Missing: quotes and bytes outside ASCII; files named like those of the library or beginning with "<". *)
Theorem C84_rule_text_partial :
  forall target source files, (forall f, In f files -> Forall (fun c => printable c = true /\ c <> quote \/ c = tab \/ c = newline) f) ->
  exists names,
    rule target source (registered files) =
      target ++ of_string ":" ++ (match source with Some s => of_string " " ++ s | None => [] end)
      ++ flat_map (fun n => of_string " \" ++ [newline] ++ of_string " " ++ n) names ++ [newline] /\
    NoDup names /\
    (forall f, In f names <-> In f files /\ source <> Some f /\ hd_error f <> Some "<"%char /\ ~ library f).
Proof.
  intros target source files F. assert (P : forall f, In f files -> forallb carried f = true).
  { intros f I0. apply forallb_forall. specialize (F f I0). rewrite Forall_forall in F. intros c C. unfold carried. destruct (F c C) as [(X & Q)|[->| ->]]; [|reflexivity|reflexivity]. rewrite X. destruct (Ascii.eqb_spec c quote); [congruence|reflexivity]. }
  destruct (registered_carried files P) as (E & ND & M). eexists. split; [|split].
  - rewrite E. rewrite rule_carried by (intros d I0; apply P, M, I0). reflexivity.
  - apply NoDup_filter, ND.
  - intros f. rewrite filter_In, M, negb_true_iff. destruct source as [s|]; [|intuition discriminate]. destruct (text_eqb s f) eqn:Q.
    + apply text_eqb_iff in Q as ->. intuition congruence.
    + assert (s <> f) by (intros ->; assert (text_eqb f f = true) by (now apply text_eqb_iff); congruence). intuition congruence.
Qed.
Print Assumptions C84_rule_text_partial.
Example rule_text_used : rule (of_string "a.o") (Some (of_string "a.ispc")) (registered (map of_string ["<built-in>"; "a.ispc"; "my file\.h"]%string)) = of_string "a.o: a.ispc \" ++ [newline] ++ of_string " my file\.h" ++ [newline].
Proof. reflexivity. Qed.

(** The flat list has one line for each file read.  Missing: as for the rule, and names that the preprocessor escapes, see C84_flat_escaped_refuted. *)
Theorem C84_flat_partial :
  forall files, (forall f, In f files -> plain f) ->
  NoDup (lines_from [] (flat (registered files))) /\
  (forall f, In f (lines_from [] (flat (registered files))) <-> In f files /\ ~ library f).
Proof.
  intros files P. destruct (registered_plain files P) as (_ & ND & M). rewrite lines_flat; auto.
  intros d I0 X. apply M in I0 as (I0 & _). destruct (P d I0) as (_ & F). rewrite Forall_forall in F. destruct (plain_facts _ (F _ X)) as (_ & _ & NN & _). congruence.
Qed.
Print Assumptions C84_flat_partial.
Example flat_used : lines_from [] (flat (registered (map of_string ["a.ispc"; "b.isph"; "a.ispc"]%string))) = map of_string ["a.ispc"; "b.isph"]%string.
Proof. reflexivity. Qed.

(** The target: what -MT says, otherwise the output file, otherwise the source with its extension replaced, otherwise a.out. *)
Theorem C84_target :
  forall given out source,
  (given <> [] -> target_name given out source = given) /\
  (given = [] -> out <> [] -> target_name given out source = out) /\
  (given = [] -> out = [] -> source = None -> target_name given out source = of_string "a.out") /\
  (given = [] -> out = [] -> forall base ext, source = Some (base ++ "."%char :: ext) -> ~ In "."%char ext -> target_name given out source = base ++ of_string ".o") /\
  (given = [] -> out = [] -> forall base, source = Some base -> ~ In "."%char base -> target_name given out source = base ++ of_string ".o").
Proof.
  intros given out source. assert (N : forall s, ~ In "."%char s -> before_last_dot s = None).
  { induction s as [|c s IH]; intros H; [reflexivity|]. cbn [before_last_dot]. rewrite IH by (intros X; apply H; right; auto). destruct (Ascii.eqb_spec c "."); [exfalso; apply H; left; auto|reflexivity]. }
  split; [|split; [|split; [|split]]].
  - destruct given; [congruence|reflexivity].
  - intros -> O0. destruct out; [congruence|reflexivity].
  - intros -> -> ->. reflexivity.
  - intros -> -> base ext -> H. cbn [target_name]. f_equal.
    assert (B : before_last_dot (base ++ "."%char :: ext) = Some base) by (clear -N H; induction base as [|c b IH]; cbn [app before_last_dot]; [rewrite (N ext H); reflexivity|now rewrite IH]). now rewrite B.
  - intros -> -> base -> H. cbn [target_name]. now rewrite (N base H).
Qed.
Print Assumptions C84_target.
Example target_used : target_name [] [] (Some (of_string "dir/a.b.ispc")) = of_string "dir/a.b.o" /\ target_name (of_string "x") (of_string "y") None = of_string "x".
Proof. split; reflexivity. Qed.

(** A source without extension in a directory with a dot in its name: the rule's target is cut inside the name of the directory.  The target of ../kernel is "..o". *)
Theorem C84_target_directory_refuted :
  ~ (forall dir base, ~ In "."%char base -> target_name [] [] (Some (dir ++ of_string "/" ++ base)) = dir ++ of_string "/" ++ base ++ of_string ".o").
Proof.
  intros H. specialize (H (of_string "..") (of_string "kernel")). assert (X : ~ In "."%char (of_string "kernel")) by (cbn; intuition discriminate). specialize (H X). discriminate.
Qed.
Print Assumptions C84_target_directory_refuted.

(** Blanks are written as they are: a header "my header.isph" is read by make as two prerequisites, and the header itself is not among them. *)
Theorem C84_blank_refuted :
  ~ (forall target source files, plain target -> plain source -> (forall f, In f files -> Forall (fun c => printable c = true /\ c <> quote) f) ->
     exists p, make_rule (rule target (Some source) (registered files)) = Some (target, p) /\ forall f, In f files -> In f p).
Proof.
  intros H. destruct (H (of_string "a.o") (of_string "a.ispc") [of_string "my header.isph"]) as (p & E & A).
  - apply plain_text; (reflexivity || discriminate).
  - apply plain_text; (reflexivity || discriminate).
  - intros f [<-|[]]. repeat (constructor; [split; [reflexivity|discriminate]|]). constructor.
  - specialize (A _ (or_introl eq_refl)). vm_compute in E. injection E as <-. vm_compute in A. intuition discriminate.
Qed.
Print Assumptions C84_blank_refuted.

(** Octal escapes are not undone: a name with a letter outside ASCII, here é in UTF-8, is listed with six octal digits instead. *)
Theorem C84_not_ascii_refuted :
  ~ (forall name, ~ In quote name -> unescape (up_to_quote (escape name ++ [quote])) = name).
Proof. intros H. specialize (H ["195"; "169"; "."; "h"]%char). assert (X : ~ In quote ["195"; "169"; "."; "h"]%char) by (cbn; intuition discriminate). specialize (H X). discriminate. Qed.
Print Assumptions C84_not_ascii_refuted.
Theorem C84_octal_listed : unescape (up_to_quote (escape ["195"; "169"; "."; "h"]%char ++ [quote])) = of_string "\303\251.h".
Proof. reflexivity. Qed.
Print Assumptions C84_octal_listed.

(** The lexer takes the first quote for the end of the name, also an escaped one: of a name with a quote in it only the part before the quote is listed. *)
Theorem C84_quote_refuted :
  ~ (forall name, Forall (fun c => printable c = true) name -> unescape (up_to_quote (escape name ++ [quote])) = name).
Proof. intros H. specialize (H ["a"%char; quote; "b"%char]). assert (X : Forall (fun c => printable c = true) ["a"%char; quote; "b"%char]) by (repeat constructor). specialize (H X). discriminate. Qed.
Print Assumptions C84_quote_refuted.

(** The flat list is written without undoing the escapes, unlike the rule: a backslash in a name is doubled in it. *)
Theorem C84_flat_escaped_refuted :
  ~ (forall files, (forall f, In f files -> Forall (fun c => printable c = true /\ c <> quote) f) -> forall f, In f files -> ~ library f -> In f (lines_from [] (flat (registered files)))).
Proof.
  intros H. assert (X : In (of_string "a\b.h") (lines_from [] (flat (registered [of_string "a\b.h"])))).
  { apply H; [|left; auto|vm_compute; intuition discriminate]. intros f [<-|[]]. repeat (constructor; [split; [reflexivity|discriminate]|]). constructor. }
  vm_compute in X. intuition discriminate.
Qed.
Print Assumptions C84_flat_escaped_refuted.

(** The library's files are recognized by their names: a header of the user's own named stdlib.ispc is not listed. *)
Theorem C84_library_name_refuted :
  ~ (forall files, (forall f, In f files -> plain f) -> forall f, In f files -> In f (lines_from [] (flat (registered files)))).
Proof.
  intros H. specialize (H [of_string "stdlib.ispc"]). assert (X : In (of_string "stdlib.ispc") (lines_from [] (flat (registered [of_string "stdlib.ispc"])))).
  { apply H; [|left; auto]. intros f [<-|[]]. apply plain_text; (reflexivity || discriminate). }
  exact X.
Qed.
Print Assumptions C84_library_name_refuted.
