(** * The number a hexadecimal floating-point literal denotes: docs/ispc.rst 2868-2875 *)
From Coq Require Import ZArith Ascii String List SpecFloat.
From Verif Require Import TypesModel LexSpec.
Import ListNotations.
Local Open Scope Z_scope.

(** the double [x] is exactly [m] * 2^[e] *)
Definition is_exactly (x : spec_float) (m e : Z) : Prop :=
  match x with
  | S754_zero false => m = 0
  | S754_finite false p q => valid_binary 53 1024 x = true /\ Zpos p * 2 ^ (q - Z.min q e) = m * 2 ^ (e - Z.min q e)
  | _ => False
  end.

Definition leading (c : ascii) (l : Z) : Prop := (c = "0"%char /\ l = 0) \/ (c = "1"%char /\ l = 1).
(** the part between the leading digit and the p: [n] digits of value [f] *)
Definition fraction_part (s : name) (n : nat) (f : Z) : Prop :=
  ((s = [] \/ s = lit ".") /\ n = 0%nat /\ f = 0) \/ exists ds, s = "."%char :: ds /\ n = length ds /\ denotes 16 ds f.
Definition exponent_part (s : name) (e : Z) : Prop :=
  exists ds v, denotes 10 ds v /\ ((s = ds \/ s = "+"%char :: ds) /\ e = v \/ s = "-"%char :: ds /\ e = - v).
(** what follows the literal is not a decimal digit *)
Definition ends_here (rest : name) : Prop := ~ starts_with_digit 10 rest.
