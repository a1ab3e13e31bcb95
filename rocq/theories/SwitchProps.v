(** C85: the labels of switch statements. *)
From Coq Require Import ZArith List Bool Lia.
From Verif Require Import SwitchModel SwitchSpec SwitchProofs.
Import ListNotations.
Local Open Scope Z_scope.

(** The labels the compiler collects for a switch are exactly those of the source that belong to it, whatever statements they are nested in and not those of a switch inside it, and no two of them are the same. *)
Theorem C85_labels :
  forall inside t s, compiles inside (Switch t s) = true ->
  NoDup (labels s) /\
  (forall l, In l (labels s) -> exists o, belongs o s /\ stands_for l o) /\
  (forall o, belongs o s -> exists l, In l (labels s) /\ stands_for l o).
Proof.
  intros inside t s E. apply switch_compiles in E. unfold labels. destruct (collect s ([], false)) as (ls & e) eqn:C. cbn in E. subst e. destruct (collect_ok s [] ls C) as (new & -> & M & N). cbn [fst app] in *. split; [apply N; constructor|]. now apply stands_translate.
Qed.
Print Assumptions C85_labels.
Definition nested : stm := Sub [Case (Int 32) 1 Other; Sub [Case (Int 8) (-3) Other; Switch (Int 32) (Sub [Case (Int 32) 1 Other; Default Other])]; Default (Case (UInt 8) 200 Other)].
Example labels_used : collect nested ([], false) = ([Value 1; Value (-3); Otherwise; Value 200], false) /\ compiles true (Switch (Int 32) nested) = true.
Proof. split; reflexivity. Qed.

(** In a switch that compiles, on an operand of at most 32 bits, control goes where C sends it: to the label whose value is that of the operand in the promoted type, to default if there is none, and behind the switch if there is no default.  The same for each program instance if the operand varies.
    Missing: operands of 64 bits, for which see C85_wide_partial. *)
Theorem C85_narrow_partial :
  forall t s x inside, typed s -> promoted_bits t = 32 -> compiles inside (Switch t s) = true ->
  (forall tv v, belongs (Some (tv, v)) s -> same t x v ->
     exists w, case_value tv v = Some w /\ jump t x (labels s) = Some (Value w) /\ (forall l, In l (labels s) -> turned_on t x (labels s) l = true <-> l = Value w)) /\
  ((forall tv v, belongs (Some (tv, v)) s -> ~ same t x v) ->
     (belongs None s -> jump t x (labels s) = Some Otherwise) /\ (~ belongs None s -> jump t x (labels s) = None) /\
     (forall l, In l (labels s) -> turned_on t x (labels s) l = true <-> l = Otherwise)).
Proof.
  intros t s x inside T P E. apply switch_compiles in E. apply (chosen t s x E T). intros tv v w B C. destruct (T tv v B) as (I0 & H). destruct (case_value_low tv v w I0 H C) as (L & _). now apply narrow_low.
Qed.
Print Assumptions C85_narrow_partial.
Example narrow_used : typed nested /\ jump (UInt 8) 200 (labels nested) = Some (Value 200) /\ jump (Int 32) 200 (labels nested) = Some (Value 200) /\ jump (Int 8) (-3) (labels nested) = Some (Value (-3)) /\ jump (Int 16) 7 (labels nested) = Some Otherwise.
Proof.
  split; [|repeat split; reflexivity]. intros t v B. apply source_belongs in B. cbn in B. destruct B as [E|[E|[E|[E|[]]]]]; try discriminate; injection E as <- <-; cbn; lia.
Qed.

(** On an operand of 64 bits the same holds if the values of the labels are those of an int.
    Missing: labels of 2^31 and more, see C85_wide_unsigned_refuted and C85_wide_label_refuted. *)
Theorem C85_wide_partial :
  forall t s x inside, typed s -> (forall tv v, belongs (Some (tv, v)) s -> v < 2 ^ 31) -> compiles inside (Switch t s) = true ->
  (forall tv v, belongs (Some (tv, v)) s -> same t x v ->
     exists w, case_value tv v = Some w /\ jump t x (labels s) = Some (Value w) /\ (forall l, In l (labels s) -> turned_on t x (labels s) l = true <-> l = Value w)) /\
  ((forall tv v, belongs (Some (tv, v)) s -> ~ same t x v) ->
     (belongs None s -> jump t x (labels s) = Some Otherwise) /\ (~ belongs None s -> jump t x (labels s) = None) /\
     (forall l, In l (labels s) -> turned_on t x (labels s) l = true <-> l = Otherwise)).
Proof.
  intros t s x inside T P E. apply switch_compiles in E. apply (chosen t s x E T). intros tv v w B C. destruct (T tv v B) as (I0 & H). now rewrite (case_value_small tv v w I0 H (P tv v B) C).
Qed.
Print Assumptions C85_wide_partial.
Example wide_used : jump (Int 64) (-3) (labels nested) = Some (Value (-3)) /\ jump (UInt 64) (2 ^ 64 - 3) (labels nested) = Some (Value (-3)) /\ jump (Int 64) (2 ^ 32 + 1) (labels nested) = Some Otherwise.
Proof. repeat split; reflexivity. Qed.

(** A switch is accepted exactly if C accepts it, for labels that an int can hold: no two labels with the same value, no two defaults, and the statements in it are accepted.
    [source s] lists the labels that belong to the switch, with repetitions.  Missing: other labels, see the refutations. *)
Theorem C85_accepted_partial :
  forall inside t s, typed s -> (forall tv v, belongs (Some (tv, v)) s -> - 2 ^ 31 <= v < 2 ^ 31) ->
  compiles inside (Switch t s) = true <-> NoDup (map (option_map snd) (source s)) /\ compiles true s = true.
Proof.
  intros inside t s T P. cbn [compiles]. rewrite andb_true_iff, negb_true_iff. apply and_iff_compat_r. clear inside t. revert s T P.
  intros s T P. set (f := fun o => match o with Some v => Value v | None => Otherwise end).
  assert (M : map translate (source s) = map Some (map f (map (option_map snd) (source s)))).
  { rewrite !map_map. apply map_ext_in. intros [(t & v)|] I0; [|reflexivity]. apply source_belongs in I0. destruct (T t v I0) as (It & H). specialize (P t v I0). cbn [translate option_map snd f]. 
    assert (X : exists w, case_value t v = Some w) by (now apply case_value_total). destruct X as (w & X). rewrite X. cbn. rewrite (case_value_small t v w It H ltac:(lia) X). reflexivity. }
  assert (J : forall a b, f a = f b -> a = b) by (intros [a|] [b|]; cbn; congruence).
  split.
  - intros E. destruct (collect s ([], false)) as (ls & e) eqn:C. cbn in E. subst e. destruct (collect_ok s [] ls C) as (new & -> & N & D). cbn [app] in *. rewrite M in N.
    assert (X : new = map f (map (option_map snd) (source s))) by (clear -N; revert N; generalize (map f (map (option_map snd) (source s))); induction new as [|a r IH]; intros [|b q] N; try discriminate; auto; injection N as -> N; f_equal; auto).
    apply (NoDup_map_inv f). rewrite <- X. apply D. constructor.
  - intros D. rewrite (collect_complete s [] (map f (map (option_map snd) (source s)))); [reflexivity|now rewrite M|]. cbn [app]. clear -D J. induction D as [|a r N D IH]; cbn [map]; constructor; auto. intros X. apply in_map_iff in X as (b & E & I0). apply J in E. now subst.
Qed.
Print Assumptions C85_accepted_partial.
Example accepted_used : NoDup (map (option_map snd) (source nested)) /\ snd (collect (Sub [Case (Int 32) 5 Other; Sub [Case (UInt 8) 5 Other]]) ([], false)) = true /\ snd (collect (Sub [Default Other; Sub [Default Other]]) ([], false)) = true.
Proof. split; [|split; reflexivity]. cbn. repeat (constructor; [cbn; intuition discriminate|]). constructor. Qed.

(** A label that is unsigned and 2^31 or more, such as 4294967295 or an enumerator with that value, is sign-extended when the operand has 64 bits: a switch on the int64 4294967295 does not find it, and the int64 -1 does. *)
Theorem C85_wide_unsigned_refuted :
  ~ (forall t s x, integer t -> has_type t x -> typed s -> compiles true (Switch t s) = true ->
     forall tv v, belongs (Some (tv, v)) s -> same t x v -> exists w, jump t x (labels s) = Some (Value w)) /\
  jump (Int 64) (-1) (labels (Sub [Case (UInt 32) 4294967295 Other])) = Some (Value (-1)).
Proof.
  split; [|reflexivity]. intros H. destruct (H (Int 64) (Sub [Case (UInt 32) 4294967295 Other]) 4294967295) with (tv := UInt 32) (v := 4294967295) as (w & E); cbn; try lia; auto.
  - intros t v B. apply source_belongs in B. cbn in B. destruct B as [E|[]]; injection E as <- <-; cbn; lia.
  - apply source_belongs. cbn. auto.
  - exists 0. lia.
  - vm_compute in E. discriminate.
Qed.
Print Assumptions C85_wide_unsigned_refuted.

(** For the same reason two labels that differ are called duplicates: -1 and 4294967295 in a switch on an int64. *)
Theorem C85_wide_duplicate_refuted :
  ~ (forall t s, promoted_bits t = 64 -> typed s -> (forall tv v, belongs (Some (tv, v)) s -> exists w, case_value tv v = Some w) ->
     NoDup (map (option_map snd) (source s)) -> compiles true (Switch t s) = true).
Proof.
  intros H. specialize (H (Int 64) (Sub [Case (UInt 32) 4294967295 Other; Case (Int 32) (-1) Other]) eq_refl). assert (X : compiles true (Switch (Int 64) (Sub [Case (UInt 32) 4294967295 Other; Case (Int 32) (-1) Other])) = true).
  { apply H.
    - intros t v B. apply source_belongs in B. cbn in B. destruct B as [E|[E|[]]]; injection E as <- <-; cbn; lia.
    - intros t v B. apply source_belongs in B. cbn in B. destruct B as [E|[E|[]]]; injection E as <- <-; eexists; reflexivity.
    - cbn. repeat (constructor; [cbn; intuition discriminate|]). constructor. }
  vm_compute in X. discriminate.
Qed.
Print Assumptions C85_wide_duplicate_refuted.

(** A switch on an int64 cannot have the label 2^32: every label must fit into an int, whatever the operand. *)
Theorem C85_wide_label_refuted :
  ~ (forall t v, integer t -> has_type t v -> compiles true (Switch t (Sub [Case t v Other])) = true).
Proof. intros H. specialize (H (Int 64) (2 ^ 32)). assert (X : compiles true (Switch (Int 64) (Sub [Case (Int 64) (2 ^ 32) Other])) = true) by (apply H; cbn; lia). vm_compute in X. discriminate. Qed.
Print Assumptions C85_wide_label_refuted.

(** A label of type float is an error, but an operand of type float is not, although the guide wants an integer: it is converted to int. *)
Theorem C85_float_operand_refuted :
  ~ (forall t s, compiles true (Switch t s) = true -> integer t) /\ (forall v s, compiles true (Switch Float (Case Float v s)) = false).
Proof. split; [|reflexivity]. intros H. exact (H Float (Sub [Case (Int 32) 1 Other]) eq_refl). Qed.
Print Assumptions C85_float_operand_refuted.

(** Labels outside of any switch are errors. *)
Theorem C85_outside : forall s o, belongs o s -> compiles false s = false.
Proof.
  intros s o B. induction B as [t v s|s|l t v s B IH|l s B IH|l s ss I0 B IH]; cbn [compiles andb]; auto. destruct (forallb (compiles false) ss) eqn:F; auto. rewrite forallb_forall in F. rewrite (F s I0) in IH. discriminate.
Qed.
Print Assumptions C85_outside.
Example outside_used : belongs None (Sub [Other; Default Other]).
Proof. apply (b_in_sub None (Default Other)); [right; left; auto|constructor]. Qed.
