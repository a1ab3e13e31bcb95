(** print (C61) and assert (C62). *)

From Coq Require Import ZArith Bool Ascii String List Lia.
From Verif Require Import Bits PrintModel PrintSpec PrintProofs PrintProofs2 PrintProofs3.
Import ListNotations.
Open Scope Z_scope.

(** * C61 *)

(** What print writes: the format with its percent signs replaced by the values, cut off
    after 8195 characters.  Missing: varying arguments whose text has 1024 characters or
    more, and varying booleans when some instance is not executing. *)
Theorem C61_print_partial (number : base -> Z -> text) (garbage : text) (width : nat) (mask : Z) (format : text)
  (args : list arg) :
  number_ok number -> (0 < width)%nat -> List.length garbage = 1024%nat -> ~ In NUL format ->
  percents format = List.length args ->
  Forall (fun a => arg_ok width a /\ ~ bool_off width mask a /\
            (List.length (show_arg number width mask a) < 1024)%nat) args ->
  print_cpu number garbage width mask format args =
    Printed (firstn 8195 (replace format (map (show_arg number width mask) args))).
Proof. exact (fun Hn => print_cpu_ok number Hn garbage width mask format args). Qed.

(** On Xe targets, which split the print into several, without these exceptions. *)
Theorem C61_print_xe (number : base -> Z -> text) (width : nat) (mask : Z) (format : text) (args : list arg) :
  (0 < width)%nat -> (width <= 64)%nat -> Forall (arg_ok width) args -> percents format = List.length args ->
  print_xe number width mask format args = Printed (replace format (map (show_arg number width mask) args)).
Proof. exact (print_xe_ok number width mask format args). Qed.

(** Formats are split into parts the run time accepts (at most 16 KB with the final
    null character). *)
Theorem C61_xe_formats_are_short (width : nat) (mask : Z) (format : text) (args : list arg) (types : list Z)
  (vals : list (list Z)) :
  (0 < width)%nat -> (width <= 64)%nat -> Forall (arg_ok width) args -> percents format = List.length args ->
  process_args args = Some (types, vals) ->
  exists calls, xe_calls LZMaxFormatStrSize width mask format (combine types vals) = Some calls /\
    Forall (fun '(f, _) => (List.length f < 16 * 1024)%nat) calls.
Proof.
  intros H1 H2 H3 H4 H5. rewrite process_args_ok in H5.
  - injection H5 as <- <-. exact (xe_calls_short (fun _ _ => []) width mask format args H1 H2 H3 H4).
  - eapply Forall_impl; [|exact H3]. intros a (H & _). exact H.
Qed.

(** A format with more or fewer percent signs than there are values is not accepted. *)
Theorem C61_wrong_number_of_values (number : base -> Z -> text) (garbage : text) (width : nat) (mask : Z)
  (format : text) (args : list arg) :
  percents format <> List.length args ->
  print_cpu number garbage width mask format args = Rejected /\ print_xe number width mask format args = Rejected.
Proof.
  intros H. unfold print_cpu, print_xe, check_format.
  change (percents format) with (List.length (filter is_percent format)) in H.
  rewrite (proj2 (Nat.eqb_neq _ _) H). split; reflexivity.
Qed.

(** A varying value whose text has 1024 characters or more is written past the end of a
    buffer of 1024 characters: each element is written with its own limit of 1024
    (builtins/builtins-c-cpu.cpp 99-110). *)
Theorem C61_long_value_undefined (number : base -> Z -> text) (garbage : text) (width : nat) (mask : Z)
  (f1 f2 : text) (pre : list arg) (a : arg) (post : list arg) :
  number_ok number -> (0 < width)%nat -> List.length garbage = 1024%nat -> ~ In NUL f1 ->
  percents f1 = List.length pre -> percents f2 = List.length post ->
  Forall (fun a => arg_ok width a /\ ~ bool_off width mask a /\
            (List.length (show_arg number width mask a) < 1024)%nat) pre ->
  Forall (fun a => a_kind a <> KOther) post ->
  (List.length (replace f1 (map (show_arg number width mask) pre)) < 8195)%nat ->
  arg_ok width a -> ~ bool_off width mask a -> a_varying a = true ->
  (1024 <= List.length (show_arg number width mask a))%nat ->
  print_cpu number garbage width mask (f1 ++ "%"%char :: f2) (pre ++ a :: post) = Undefined.
Proof. exact (fun Hn => print_cpu_overflow number Hn garbage width mask f1 f2 pre a post). Qed.

(** * Examples *)

Definition no_number : base -> Z -> text := fun _ _ => str "1.000000".

(** [print("i = %, x = %\n", i, x)] with three of four instances executing. *)
Example C61_example :
  Forall (fun a => arg_ok 4 a /\ ~ bool_off 4 7 a /\ (List.length (show_arg no_number 4 7 a) < 1024)%nat)
    [mk_arg false KInt32 [10]; mk_arg true KInt16 [0; -1; 2; 3]] /\
  print_cpu no_number (repeat "!"%char 1024) 4 7 (str "i = %, x = %") [mk_arg false KInt32 [10]; mk_arg true KInt16 [0; -1; 2; 3]] =
    Printed (str "i = 10, x = [0,-1,2,((3))]").
Proof.
  split.
  - repeat (apply Forall_cons; [split; [split; [discriminate|split; [|reflexivity]]|
      split; [intros (H1 & H2 & _); discriminate|apply Nat.ltb_lt; vm_compute; reflexivity]]|]); [| |apply Forall_nil].
    + repeat constructor; discriminate.
    + repeat constructor; discriminate.
  - vm_compute. reflexivity.
Qed.

Example C61_example_xe :
  print_xe no_number 4 7 (str "i = %, x = % %") [mk_arg false KInt64 [-10]; mk_arg true KBool [0; 1; 1; 1]; mk_arg false KFloat [0]] =
    Printed (str "i = -10, x = [false,true,true,((true))] 1.000000").
Proof. vm_compute. reflexivity. Qed.

(** * Refutations *)

(** A gang of 64 instances that all print a varying int64 of INT64_MIN writes outside of
    the buffer (as does a gang of 4 with doubles of 1e300). *)
Theorem C61_buffer_overflow_refuted :
  exists width mask a, arg_ok width a /\ a_varying a = true /\ (width <= 64)%nat /\
    forall garbage, List.length garbage = 1024%nat ->
    print_cpu no_number garbage width mask (str "%") [a] = Undefined.
Proof.
  exists 64%nat, (Z.ones 64), (mk_arg true KInt64 (repeat (- 2 ^ 63) 64)).
  assert (A : arg_ok 64 (mk_arg true KInt64 (repeat (- 2 ^ 63) 64))).
  { split; [discriminate|]. split; [|reflexivity]. apply Forall_forall. intros x Hx. apply repeat_spec in Hx as ->. cbn. lia. }
  split; [exact A|]. split; [reflexivity|]. split; [lia|].
  intros garbage HL.
  apply (C61_long_value_undefined no_number garbage 64 (Z.ones 64) [] [] [] _ []); auto; try lia; try reflexivity.
  - intros b v. apply clean_str. reflexivity.
  - apply Nat.ltb_lt. vm_compute. reflexivity.
  - intros (_ & H & _). discriminate.
  - apply Nat.leb_le. vm_compute. reflexivity.
Qed.

(** The value of a varying boolean in an instance that is not executing is printed as
    underscores, not in parentheses (builtins/builtins-c-cpu.cpp 133-138); on Xe targets
    it is printed in parentheses. *)
Theorem C61_boolean_off_refuted :
  exists mask a, arg_ok 2 a /\
    print_cpu no_number (repeat "!"%char 1024) 2 mask (str "%") [a] <>
      Printed (replace (str "%") [show_arg no_number 2 mask a]) /\
    print_cpu no_number (repeat "!"%char 1024) 2 mask (str "%") [a] = Printed (str "[true,_________]").
Proof.
  exists 1, (mk_arg true KBool [1; 1]).
  assert (E : print_cpu no_number (repeat "!"%char 1024) 2 1 (str "%") [mk_arg true KBool [1; 1]] = Printed (str "[true,_________]"))
    by (vm_compute; reflexivity).
  split; [split; [discriminate|]; split; [|reflexivity]|].
  { repeat (apply Forall_cons; [right; reflexivity|]). apply Forall_nil. }
  split; [|exact E]. intros H. rewrite E in H. injection H as H. vm_compute in H. discriminate.
Qed.

(** Longer output is cut off. *)
Theorem C61_long_output_refuted :
  exists format, percents format = O /\ ~ In NUL format /\
    print_cpu no_number (repeat "!"%char 1024) 4 15 format [] <> Printed (replace format []).
Proof.
  exists (repeat "x"%char 8196).
  assert (N : forall n, ~ In NUL (repeat "x"%char n)).
  { intros n H. apply repeat_spec in H. discriminate. }
  assert (P : forall n, percents (repeat "x"%char n) = O).
  { unfold percents. induction n as [|n IH]; [reflexivity|exact IH]. }
  split; [apply P|]. split; [apply N|].
  rewrite C61_print_partial; auto.
  - assert (R : forall n, replace (repeat "x"%char n) [] = repeat "x"%char n).
    { induction n as [|n IH]; [reflexivity|]. change (replace (repeat "x"%char (S n)) []) with ("x"%char :: replace (repeat "x"%char n) []).
      rewrite IH. reflexivity. }
    cbn [map]. rewrite R. intros H.
    assert (I : forall t u, Printed t = Printed u -> t = u) by (intros t u [= ->]; reflexivity).
    apply I in H. apply (f_equal (@List.length ascii)) in H.
    rewrite firstn_length, repeat_length in H.
    assert (E : Nat.eqb (Nat.min 8195 8196) 8196 = false) by (vm_compute; reflexivity).
    rewrite H, Nat.eqb_refl in E. discriminate.
  - intros b v. apply clean_str. reflexivity.
Qed.

(** * C62 *)

(** An assertion on a varying condition stops the program exactly if the condition is
    false for an executing instance, whatever the number of bits the target has in a
    mask; both implementations. *)
Theorem C62_assert_varying (bits : Z) (s : text) (test mask : list bool) :
  0 < bits -> List.length test = List.length mask ->
  (do_assert_varying bits s (as_mask bits test) (as_mask bits mask) = Stops s <-> fails test mask) /\
  (do_assert_varying bits s (as_mask bits test) (as_mask bits mask) = Continues <-> ~ fails test mask).
Proof. exact (assert_varying_ok bits s test mask). Qed.

Theorem C62_assert_varying_generic (bits : Z) (s : text) (test mask : list bool) :
  0 < bits -> List.length test = List.length mask ->
  (do_assert_varying_generic s (as_mask bits test) (as_mask bits mask) = Stops s <-> fails test mask) /\
  (do_assert_varying_generic s (as_mask bits test) (as_mask bits mask) = Continues <-> ~ fails test mask).
Proof. exact (assert_generic_ok bits s test mask). Qed.

Example C62_example :
  do_assert_varying 32 (str "no") (as_mask 32 [true; false; true; false]) (as_mask 32 [true; false; true; false]) = Continues /\
  do_assert_varying 32 (str "no") (as_mask 32 [true; false; true; false]) (as_mask 32 [true; true; true; false]) = Stops (str "no") /\
  do_assert_varying_generic (str "no") (as_mask 32 [true; false; true; false]) (as_mask 32 [true; true; true; false]) = Stops (str "no").
Proof. repeat split; vm_compute; reflexivity. Qed.

(** On Xe targets the message of [assert(x % 2 == 0)] is the format of a printf without
    arguments: what is printed is undefined. *)
Theorem C62_xe_message_refuted :
  xe_message (do_assert_varying 32 (str "a.ispc:2:5: Assertion failed: x % 2 == 0 ") (as_mask 32 [false]) (as_mask 32 [true])) = None.
Proof. vm_compute. reflexivity. Qed.

Print Assumptions C61_print_partial.
Print Assumptions C61_print_xe.
Print Assumptions C61_xe_formats_are_short.
Print Assumptions C61_wrong_number_of_values.
Print Assumptions C61_long_value_undefined.
Print Assumptions C61_buffer_overflow_refuted.
Print Assumptions C61_boolean_off_refuted.
Print Assumptions C61_long_output_refuted.
Print Assumptions C62_assert_varying.
Print Assumptions C62_assert_varying_generic.
Print Assumptions C62_xe_message_refuted.
