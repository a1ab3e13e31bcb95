From Coq Require Import ZArith List Bool Ascii String Lia.
From Verif Require Import Bits PragmaModel PragmaSpec.
Import ListNotations.
Local Open Scope list_scope.
Local Open Scope Z_scope.

Lemma blank_iff c : blank c = true <-> c = " "%char \/ c = "009"%char \/ c = "013"%char.
Proof. unfold blank. rewrite !orb_true_iff, !Ascii.eqb_eq. tauto. Qed.
Lemma next_blanks b s : blanks b -> next_valid (b ++ s) = next_valid s.
Proof. induction 1 as [|c r A B IH]; cbn; auto. apply blank_iff in A. now rewrite A. Qed.
Lemma next_only b : blanks b -> next_valid b = [].
Proof. intros B. rewrite <- (app_nil_r b), next_blanks; auto. Qed.
Lemma next_inv s : exists b, blanks b /\ s = b ++ next_valid s.
Proof.
  induction s as [|c r (b & B & E)]; cbn; [exists []; split; [constructor|auto]|]. destruct (blank c) eqn:C; [|exists []; split; [constructor|auto]].
  exists (c :: b). split; [constructor; auto; now apply blank_iff|]. cbn. now rewrite <- E.
Qed.
Lemma after_iff p : forall s r, after p s = Some r <-> s = p ++ r.
Proof.
  induction p as [|x p IH]; intros s r; cbn; [split; [intros E; injection E; auto|intros ->; auto]|]. destruct s as [|y s]; [split; discriminate|].
  destruct (Ascii.eqb_spec x y) as [->|N]; [rewrite IH; split; [intros ->; auto|intros E; injection E; auto]|]. split; [discriminate|]. intros E. injection E as E _. congruence.
Qed.
Lemma text_eqb_iff a b : text_eqb a b = true <-> a = b.
Proof.
  revert b. induction a as [|x a IH]; intros [|y b]; cbn; try (split; congruence). rewrite andb_true_iff, IH, Ascii.eqb_eq. split; [intros (-> & ->); auto|intros E; injection E as -> ->; auto].
Qed.
Lemma is_digit_facts c : is_digit c -> digit c = Z.of_nat (nat_of_ascii c) - 48 /\ 0 <= digit c < 10 /\ blank c = false /\ space c = false /\
  Ascii.eqb c "-" = false /\ Ascii.eqb c "+" = false /\ Ascii.eqb c "(" = false /\ (c <> "0"%char -> 0 < digit c).
Proof.
  intros (n & L & ->). do 10 (destruct n as [|n]; [repeat split; try reflexivity; try (vm_compute; congruence); intros X; exfalso; apply X; reflexivity|]). lia.
Qed.
Lemma skip_blanks b s : blanks b -> skip_space (b ++ s) = skip_space s.
Proof. induction 1 as [|c r A B IH]; cbn; auto. destruct A as [->|[->| ->]]; exact IH. Qed.
Lemma value_nonneg s : Forall is_digit s -> 0 <= value s.
Proof. induction 1 as [|c r A B IH]; cbn; [lia|]. destruct (is_digit_facts c A) as (E & R & _). pose proof (Z.pow_pos_nonneg 10 (Z.of_nat (List.length r)) ltac:(lia) ltac:(lia)). nia. Qed.
Lemma value_positive s : number s -> 0 < value s.
Proof.
  intros (F & c & r & -> & N). inversion F as [|? ? A B]; subst. cbn. destruct (is_digit_facts c A) as (E & R & _ & _ & _ & _ & _ & P). specialize (P N). pose proof (value_nonneg r B).
  pose proof (Z.pow_pos_nonneg 10 (Z.of_nat (List.length r)) ltac:(lia) ltac:(lia)). nia.
Qed.
Lemma digits_value s rest : Forall is_digit s -> starts_digit 10 rest = false -> forall v, digits 10 v (s ++ rest) = (v * 10 ^ Z.of_nat (List.length s) + value s, rest).
Proof.
  intros F H. induction F as [|c r A B IH]; intros v; cbn [app digits value].
  - cbn. rewrite Z.mul_1_r, Z.add_0_r. destruct rest as [|d t]; auto. cbn in *. now rewrite H.
  - destruct (is_digit_facts c A) as (E & R & _). destruct (Z.ltb_spec (digit c) 10); [|lia]. rewrite IH. f_equal. cbn [List.length]. rewrite Nat2Z.inj_succ, Z.pow_succ_r by lia. rewrite E. nia.
Qed.
Lemma strtoull_number b s rest : blanks b -> number s -> value s < 2 ^ 64 -> starts_digit 10 rest = false -> strtoull (b ++ s ++ rest) = (value s, rest).
Proof.
  intros B (F & c & r & E & N) V H. unfold strtoull. rewrite skip_blanks by auto. pose proof (digits_value s rest F H 0) as D. subst s. inversion F as [|? ? A G]; subst.
  destruct (is_digit_facts c A) as (E & R & _ & S0 & M & P & _). cbn [app skip_space] in *. rewrite S0, M, P. destruct (Ascii.eqb_spec c "0") as [|_]; [congruence|].
  cbn [starts_digit]. destruct (Z.ltb_spec (digit c) 10); [|lia]. rewrite D. rewrite Z.mul_0_l, Z.add_0_l. destruct (Z.leb_spec (2 ^ 64) (value (c :: r))); [lia|reflexivity].
Qed.
Lemma blanks_no_digit b s : blanks b -> starts_digit 10 s = false -> starts_digit 10 (b ++ s) = false.
Proof. intros B. destruct B as [|c r A B]; cbn; auto. intros _. destruct A as [->|[->| ->]]; reflexivity. Qed.
Lemma wraps_int n : 0 <= n < 2 ^ 31 -> wraps 32 n = n.
Proof. intros H. unfold wraps. change (2 ^ (32 - 1)) with (2 ^ 31). rewrite Z.mod_small; lia. Qed.

(** ** unroll *)
Lemma consume_unroll b s : blanks b -> consume (b ++ of_string "unroll" ++ s) = pragma_unroll s.
Proof. intros B. unfold consume. rewrite next_blanks by auto. reflexivity. Qed.
Lemma consume_nounroll b s : blanks b -> consume (b ++ of_string "nounroll" ++ s) = pragma_nounroll s.
Proof. intros B. unfold consume. rewrite next_blanks by auto. reflexivity. Qed.
Lemma consume_ignore b s : blanks b -> consume (b ++ of_string "ignore warning" ++ s) = pragma_ignore s.
Proof. intros B. unfold consume. rewrite next_blanks by auto. reflexivity. Qed.
Lemma unroll_number b s b' : blanks b -> blanks b' -> number s -> value s < 2 ^ 31 -> pragma_unroll (b ++ s ++ b') = for_loop (UCount (value s)).
Proof.
  intros B B' N V. unfold pragma_unroll. rewrite next_blanks by auto.
  pose proof (strtoull_number [] s b' ltac:(constructor) N ltac:(lia)) as T. cbn [app] in T. rewrite <- (app_nil_r b') in T at 1. specialize (T (blanks_no_digit b' [] B' eq_refl)).
  pose proof (value_positive s N) as P. destruct N as (F & c & r & E & NZ). subst s. inversion F as [|? ? A G]; subst.
  destruct (is_digit_facts c A) as (_ & _ & BL & _ & _ & _ & PA & _). cbn [app next_valid] in *. rewrite BL, PA, T, wraps_int by lia.
  destruct (Z.eqb_spec (value (c :: r)) 0); [lia|]. reflexivity.
Qed.
Lemma unroll_paren b s b1 b2 b3 : blanks b -> blanks b1 -> blanks b2 -> number s -> value s < 2 ^ 31 ->
  pragma_unroll (b ++ of_string "(" ++ b1 ++ s ++ b2 ++ of_string ")" ++ b3) = for_loop (UCount (value s)).
Proof.
  intros B B1 B2 N V. unfold pragma_unroll. rewrite next_blanks by auto. change (of_string "(" ++ ?x) with ("("%char :: x). cbn [next_valid]. change (blank "(") with false. cbn iota. change (Ascii.eqb "(" "(") with true. cbn iota.
  rewrite (strtoull_number b1 s _ B1 N) by (try lia; apply blanks_no_digit; auto). rewrite next_blanks by auto.
  pose proof (value_positive s N) as P. rewrite wraps_int by lia. destruct (Z.eqb_spec (value s) 0); [lia|]. reflexivity.
Qed.

(** ** ignore warning *)
Lemma take_arg_inv s : forall a r, take_arg s = (a, r) -> s = a ++ r /\ (r = [] \/ exists c t, r = c :: t /\ (c = " "%char \/ c = ")"%char)).
Proof.
  induction s as [|c s IH]; cbn; intros a r E; [injection E as <- <-; auto|]. destruct (_ || _) eqn:C.
  - injection E as <- <-. split; auto. right. exists c, s. split; auto. apply orb_true_iff in C as [C|C]; apply Ascii.eqb_eq in C; auto.
  - destruct (take_arg s) as (a', r') eqn:T. injection E as <- <-. destruct (IH _ _ eq_refl) as (-> & H). auto.
Qed.
Lemma take_arg_stop b r : hd " "%char b = " "%char -> take_arg (b ++ of_string ")" ++ r) = ([], b ++ of_string ")" ++ r).
Proof. destruct b as [|c b]; cbn; auto. intros ->. reflexivity. Qed.
Lemma next_cons s c r : next_valid s = c :: r -> exists b, blanks b /\ s = b ++ c :: r.
Proof. intros E. destruct (next_inv s) as (b & B & H). rewrite E in H. eauto. Qed.
Lemma next_nil s : next_valid s = [] -> blanks s.
Proof. intros E. destruct (next_inv s) as (b & B & H). rewrite E, app_nil_r in H. now subst. Qed.

Lemma ignore_sound l b : e_ignore (consume l) = Some b -> ignores l b.
Proof.
  unfold consume. destruct (next_inv l) as (b1 & B1 & E1). destruct (next_valid l) as [|c0 r0]; [discriminate|].
  destruct (after (of_string "unroll") _) as [s|] eqn:A1; [unfold pragma_unroll; destruct (next_valid s); [discriminate|]; destruct (strtoull _); discriminate|].
  destruct (after (of_string "nounroll") _) as [s|] eqn:A2; [unfold pragma_nounroll; destruct (next_valid s); discriminate|].
  destruct (after (of_string "ignore warning") _) as [s|] eqn:A3; [|discriminate]. apply after_iff in A3. rewrite A3 in E1. clear A1 A2 A3. subst l.
  unfold pragma_ignore. destruct (next_valid s) as [|c r] eqn:N1; [cbn; intros E; injection E as <-; apply ignores_plain; auto; now apply next_nil|].
  apply next_cons in N1 as (b2 & B2 & ->). destruct (Ascii.eqb_spec c "(") as [->|]; [|discriminate].
  destruct (next_inv r) as (b3 & B3 & E3). destruct (take_arg (next_valid r)) as (arg, rest) eqn:T. apply take_arg_inv in T as (E & R). rewrite E in E3. clear E. subst r.
  destruct rest as [|c t]; [discriminate|]. destruct R as [|(c' & t' & ER & C)]; [discriminate|]. injection ER as <- <-.
  destruct (next_valid (c :: t)) as [|d u] eqn:N2; [discriminate|]. apply next_cons in N2 as (b4 & B4 & E4). destruct (Ascii.eqb_spec d ")") as [->|]; [|discriminate].
  destruct (next_valid u) as [|? ?] eqn:N3; [|discriminate]. apply next_nil in N3. rewrite E4 in *.
  assert (H4 : hd " "%char b4 = " "%char).
  { destruct b4 as [|x b4]; auto. cbn in *. injection E4 as -> _. destruct C as [->|C]; auto. inversion B4 as [|? ? X Y]; subst. destruct X as [X|[X|X]]; discriminate. }
  destruct (text_eqb arg (of_string "perf")) eqn:P.
  - apply text_eqb_iff in P as ->. cbn. intros E. injection E as <-. apply (ignores_arg b1 b2 b3 b4 u true); auto.
  - destruct (text_eqb arg (of_string "all")) eqn:Q; [|discriminate]. apply text_eqb_iff in Q as ->. cbn. intros E. injection E as <-. apply (ignores_arg b1 b2 b3 b4 u false); auto.
Qed.
Lemma ignore_complete l b : ignores l b -> consume l = for_line b.
Proof.
  intros [b1 b2 B1 B2|b1 b2 b3 b4 b5 op B1 B2 B3 B4 B5 H4]; rewrite consume_ignore by auto; unfold pragma_ignore; rewrite ?next_blanks by auto.
  - rewrite next_only by auto. reflexivity.
  - change (of_string "(" ++ ?x) with ("("%char :: x). cbn [next_valid]. change (blank "(") with false. cbn iota. change (Ascii.eqb "(" "(") with true. cbn iota.
    rewrite next_blanks by auto.
    assert (T : take_arg (next_valid (of_string (if op then "perf" else "all") ++ b4 ++ of_string ")" ++ b5)) = (of_string (if op then "perf" else "all"), b4 ++ of_string ")" ++ b5)).
    { pose proof (take_arg_stop b4 b5 H4) as T. destruct op; unfold of_string in *; cbn [list_ascii_of_string app next_valid take_arg] in *; [change (blank "p") with false|change (blank "a") with false]; cbn [take_arg orb Ascii.eqb Bool.eqb]; rewrite T; reflexivity. }
    rewrite T. pose proof (next_blanks b4 (of_string ")" ++ b5) B4) as X. destruct (b4 ++ of_string ")" ++ b5) as [|c t] eqn:E; [destruct b4; discriminate|]. rewrite X.
    change (of_string ")" ++ b5) with (")"%char :: b5). cbn [next_valid]. change (blank ")") with false. cbn iota. change (Ascii.eqb ")" ")") with true. cbn iota. rewrite next_only by auto. destruct op; reflexivity.
Qed.
Lemma lines_iff l : (e_lines (consume l) = 1 /\ ~ In Unknown (e_notes (consume l)) /\ ~ In Undefined (e_notes (consume l))) \/
  (e_lines (consume l) = 0 /\ (e_notes (consume l) = [Unknown] \/ e_notes (consume l) = [Undefined])).
Proof.
  unfold consume, pragma_unroll, pragma_nounroll, pragma_ignore, undefined.
  repeat match goal with |- context [match ?x with _ => _ end] => destruct x; cbn [e_lines e_notes app] end;
    (left; split; [reflexivity|split; cbn; intuition discriminate]) || (right; auto).
Qed.

(** ** Counts in other bases *)
Lemma digit_value_ok c d : digit_value c = Some d -> digit c = d /\ 0 <= d.
Proof. destruct c as [[] [] [] [] [] [] [] []]; vm_compute; intros E; try discriminate E; injection E as <-; split; congruence. Qed.
Lemma numeral_digits base s v : numeral base s v -> forall t, digits base 0 (s ++ t) = digits base v t.
Proof.
  induction 1 as [|s v c d N IH E L]; intros t; [reflexivity|]. rewrite <- app_assoc. cbn [app]. rewrite IH. cbn [digits]. destruct (digit_value_ok c d E) as (-> & _). destruct (Z.ltb_spec d base); [reflexivity|lia].
Qed.
Lemma numeral_all base s v : numeral base s v -> Forall (fun c => digit c < base) s.
Proof. induction 1 as [|s v c d N IH E L]; [constructor|]. apply Forall_app. split; auto. constructor; auto. destruct (digit_value_ok c d E) as (-> & _). auto. Qed.
Lemma stop base v b : blanks b -> base <= 16 -> digits base v b = (v, b).
Proof. intros B L. destruct B as [|c r A B]; [reflexivity|]. cbn [digits]. destruct (Z.ltb_spec (digit c) base); [|reflexivity]. exfalso. assert (D : digit c = 99) by (destruct A as [->|[->| ->]]; reflexivity). lia. Qed.
Lemma unroll_hex b x s v b' : blanks b -> blanks b' -> x = "x"%char \/ x = "X"%char -> numeral 16 s v -> 0 < v < 2 ^ 31 ->
  pragma_unroll (b ++ "0"%char :: x :: s ++ b') = for_loop (UCount v).
Proof.
  intros B B' X N V. unfold pragma_unroll. rewrite next_blanks by auto. cbn [next_valid]. change (blank "0") with false. cbn iota. change (Ascii.eqb "0" "(") with false. cbn iota.
  assert (T : strtoull ("0"%char :: x :: s ++ b') = (v, b')).
  { unfold strtoull. cbn [skip_space]. change (space "0") with false. cbn iota. change (Ascii.eqb "0" "-") with false. change (Ascii.eqb "0" "+") with false. cbn iota. change (Ascii.eqb "0" "0") with true. cbn iota.
    assert (XX : (Ascii.eqb x "x" || Ascii.eqb x "X") = true) by (destruct X as [->| ->]; reflexivity). rewrite XX.
    assert (SD : starts_digit 16 (s ++ b') = true).
    { pose proof (numeral_all _ _ _ N) as F. destruct s as [|c s]; [inversion N as [|? ? ? ? ? ? ? E]; [lia|destruct s; discriminate]|]. inversion F; subst. cbn. now apply Z.ltb_lt. }
    rewrite SD. cbn [andb]. rewrite (numeral_digits _ _ _ N), stop by (auto; lia). destruct (Z.leb_spec (2 ^ 64) v); [lia|reflexivity]. }
  rewrite T, wraps_int by lia. destruct (Z.eqb_spec v 0); [lia|]. reflexivity.
Qed.
Lemma unroll_octal b s v b' : blanks b -> blanks b' -> numeral 8 s v -> 0 < v < 2 ^ 31 -> pragma_unroll (b ++ "0"%char :: s ++ b') = for_loop (UCount v).
Proof.
  intros B B' N V. unfold pragma_unroll. rewrite next_blanks by auto. cbn [next_valid]. change (blank "0") with false. cbn iota. change (Ascii.eqb "0" "(") with false. cbn iota.
  assert (T : strtoull ("0"%char :: s ++ b') = (v, b')).
  { unfold strtoull. cbn [skip_space]. change (space "0") with false. cbn iota. change (Ascii.eqb "0" "-") with false. change (Ascii.eqb "0" "+") with false. cbn iota. change (Ascii.eqb "0" "0") with true. cbn iota.
    pose proof (numeral_all _ _ _ N) as F. assert (D : digits 8 0 ("0"%char :: s ++ b') = (v, b')) by (cbn [digits]; change (digit "0" <? 8) with true; cbn iota; change (0 * 8 + digit "0") with 0; rewrite (numeral_digits _ _ _ N); apply stop; auto; lia).
    destruct s as [|c s]; [inversion N as [|? ? ? ? ? ? ? E]; [lia|destruct s; discriminate]|]. inversion F as [|? ? G _]; subst. cbn [app] in *.
    destruct (Ascii.eqb_spec c "x") as [->|_]; [vm_compute in G; discriminate|]. destruct (Ascii.eqb_spec c "X") as [->|_]; [vm_compute in G; discriminate|]. cbn [orb andb]. rewrite D.
    destruct (Z.leb_spec (2 ^ 64) v); [lia|reflexivity]. }
  rewrite T, wraps_int by lia. destruct (Z.eqb_spec v 0); [lia|]. reflexivity.
Qed.
