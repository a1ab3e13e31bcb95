(** * Strings, comments and pragmas *)
From Coq Require Import ZArith Lia Bool Ascii String List.
From Verif Require Import Bits TypesModel LexModel LexSpec LexProofs.
Import ListNotations.
Local Open Scope Z_scope.

Lemma to_char_spec v : 0 <= v < 256 -> to_char v = character v.
Proof.
  intros H. unfold to_char, character, ascii_of_nat. rewrite wrapu_id by (unfold in_u; lia).
  rewrite Z_nat_N. reflexivity.
Qed.
Lemma escape_spec e x : documented_escape e x -> assoc e simple_escapes = Some (character x).
Proof.
  unfold documented_escape. cbn [In]. intros H.
  repeat (destruct H as [H | H]; [injection H as <- <-; reflexivity|]). contradiction.
Qed.
Lemma no_digit_spec b s : ~ starts_with_digit b s -> no_digit b s.
Proof.
  intros H. destruct s as [|c s]; [exact I|]. cbn. unfold is_digit_of. destruct (digit_val c) eqn:E; [|reflexivity].
  destruct (digit_val_inv _ _ E) as (d & -> & D). destruct (Z.ltb_spec (Z.of_nat d) b); [|reflexivity].
  exfalso. apply H. exists c, s, (Z.of_nat d). split; [reflexivity|]. constructor; assumption.
Qed.
Lemma octal_char c d : digit c d -> Z.of_nat d < 8 -> assoc c simple_escapes = None /\ is_digit_of 8 c = true.
Proof.
  intros D L. do 8 (destruct d as [|d]; [destruct D as [H | H]; injection H as <-; split; reflexivity|]). lia.
Qed.

Lemma string_spec s t : spells false s t -> forall rest fuel, (length s < fuel)%nat ->
  lStringConst fuel (s ++ """"%char :: rest) = Some t.
Proof.
  induction 1 as [| c s t C1 C2 H IH | e x s t E H IH | ds v s t D V N H IH | ds v s t X]; [| | | |discriminate X];
    intros rest fuel L; (destruct fuel as [|fuel]; [cbn in L; lia|]).
  - reflexivity.
  - cbn [app lStringConst length] in *. destruct (Ascii.eqb_spec c """"); [contradiction|].
    cbn [lEscapeChar]. destruct (Ascii.eqb_spec c "\"); [contradiction|]. cbn [negb]. rewrite IH by lia. reflexivity.
  - cbn [app lStringConst length] in *. change (Ascii.eqb "\" """") with false. cbv iota.
    cbn [lEscapeChar]. change (negb (Ascii.eqb "\" "\")) with false. cbv iota. rewrite (escape_spec _ _ E). rewrite IH by lia. reflexivity.
  - destruct (denotes_cons_nonempty _ _ _ D) as (c & r & d & E & Dc & Lc).
    destruct (octal_char c d Dc Lc) as [A1 A2].
    cbn [app lStringConst length] in *. change (Ascii.eqb "\" """") with false. cbv iota.
    unfold lEscapeChar. change (negb (Ascii.eqb "\" "\")) with false. cbv iota.
    rewrite E at 1. cbn [app]. rewrite A1, A2. unfold strtol8. rewrite <- app_assoc.
    rewrite (run_denotes 8 ds v (s ++ """"%char :: rest) D).
    2:{ apply no_digit_spec in N. destruct s; [reflexivity | exact N]. }
    assert (0 <= v) by (eapply denotes_nonneg; [|exact D]; lia).
    rewrite Z.min_l by lia. rewrite to_char_spec by lia. rewrite IH by (rewrite app_length in L; lia). reflexivity.
Qed.

(* comments *)
Lemma contains_cons w c s : contains w s -> contains w (c :: s).
Proof. intros (a & b & ->). exists (c :: a), b. reflexivity. Qed.

(* [p] is what has been read *)
Lemma comment_none s : forall prev n, ~ contains (lit "*/") (prev :: s) -> lCComment prev n s = None.
Proof.
  induction s as [|c s IH]; intros prev n H; [reflexivity|]. cbn [lCComment].
  destruct (Ascii.eqb c nul); [reflexivity|].
  destruct (Ascii.eqb_spec c "/"); destruct (Ascii.eqb_spec prev "*"); cbn [andb];
    try (apply IH; intros X; apply H; apply contains_cons, X).
  exfalso. subst. apply H. exists [], s. reflexivity.
Qed.
Lemma comment_some body : forall prev n rest, ~ contains (lit "*/") (prev :: body ++ ["*"%char]) -> ~ In (ascii_of_nat 0) body ->
  lCComment prev n (body ++ lit "*/" ++ rest) = Some (rest, (n + line_ends body)%nat).
Proof.
  induction body as [|c body IH]; intros prev n rest H Z.
  - cbn. rewrite Nat.add_0_r. reflexivity.
  - cbn [app lCComment line_ends count_occ].
    destruct (Ascii.eqb_spec c nul) as [->|]; [exfalso; apply Z; left; reflexivity|].
    assert (X : Ascii.eqb c "/" && Ascii.eqb prev "*" = false).
    { destruct (Ascii.eqb_spec c "/"); [|reflexivity]. destruct (Ascii.eqb_spec prev "*"); [|reflexivity].
      exfalso. subst. apply H. exists [], (body ++ ["*"%char]). reflexivity. }
    rewrite X. rewrite IH; [| intros Y; apply H; apply contains_cons; exact Y | intros Y; apply Z; right; exact Y].
    f_equal. f_equal. change (ascii_of_nat 10) with newline. unfold line_ends. change (ascii_of_nat 10) with newline.
    destruct (Ascii.eqb_spec c newline) as [->|Q]; [destruct (ascii_dec newline newline); [lia | contradiction]|].
    destruct (ascii_dec c newline); [contradiction | reflexivity].
Qed.
Lemma cpp_comment body : forall n rest, ~ In (ascii_of_nat 10) body -> ~ In (ascii_of_nat 0) body ->
  lCppComment n (body ++ ascii_of_nat 10 :: rest) = (rest, S n).
Proof.
  induction body as [|c body IH]; intros n rest H Z; [reflexivity|]. cbn [app lCppComment].
  destruct (Ascii.eqb_spec c nul) as [->|]; [exfalso; apply Z; left; reflexivity|].
  destruct (Ascii.eqb_spec c newline) as [->|]; [exfalso; apply H; left; reflexivity|].
  apply IH; intros Y; [apply H | apply Z]; right; exact Y.
Qed.
Lemma cpp_comment_end body : forall n, ~ In (ascii_of_nat 10) body -> ~ In (ascii_of_nat 0) body -> lCppComment n body = ([], n).
Proof.
  induction body as [|c body IH]; intros n H Z; [reflexivity|]. cbn [lCppComment].
  destruct (Ascii.eqb_spec c nul) as [->|]; [exfalso; apply Z; left; reflexivity|].
  destruct (Ascii.eqb_spec c newline) as [->|]; [exfalso; apply H; left; reflexivity|].
  apply IH; intros Y; [apply H | apply Z]; right; exact Y.
Qed.

Lemma pragma_ok body : forall c rest fuel, ~ In (ascii_of_nat 10) (c :: body) -> (length body + 1 < fuel)%nat ->
  pragma_line fuel c (body ++ ascii_of_nat 10 :: rest) = Some rest.
Proof.
  induction body as [|b body IH]; intros c rest fuel H L; (destruct fuel as [|fuel]; [cbn in L; lia|]); cbn [pragma_line app yyinput].
  - destruct (Ascii.eqb_spec c newline) as [->|]; [exfalso; apply H; left; reflexivity|].
    destruct fuel; [cbn in L; lia|]. reflexivity.
  - destruct (Ascii.eqb_spec c newline) as [->|]; [exfalso; apply H; left; reflexivity|].
    apply IH; [intros Y; apply H; right; exact Y | cbn in L; lia].
Qed.
Lemma pragma_hangs fuel : forall c body, ~ In (ascii_of_nat 10) (c :: body) -> pragma_line fuel c body = None.
Proof.
  induction fuel as [|fuel IH]; intros c body H; [reflexivity|]. cbn [pragma_line].
  destruct (Ascii.eqb_spec c newline) as [->|]; [exfalso; apply H; left; reflexivity|].
  destruct body as [|b body]; cbn [yyinput]; apply IH.
  - intros [Y | []]. discriminate Y.
  - intros Y. apply H. right. exact Y.
Qed.
