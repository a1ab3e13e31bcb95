(** What a program may expect of the random numbers. *)
From Coq Require Import ZArith List Bool.
From Verif Require Import RngModel.
Local Open Scope Z_scope.

(* The state of one program instance. *)
Definition lane_state (st : vrng) (l : nat) : rng :=
  {| z1 := v1 st l; z2 := v2 st l; z3 := v3 st l; z4 := v4 st l |}.

(* The words are unsigned int32. *)
Definition words32 (st : rng) : Prop :=
  0 <= z1 st < 2 ^ 32 /\ 0 <= z2 st < 2 ^ 32 /\ 0 <= z3 st < 2 ^ 32 /\ 0 <= z4 st < 2 ^ 32.

(* The condition of the generator (P. L'Ecuyer, Tables of maximally equidistributed combined LFSR
   generators, 1999): no word may be so small that only its unused bits are set. *)
Definition alive (st : rng) : Prop := 2 <= z1 st /\ 8 <= z2 st /\ 16 <= z3 st /\ 128 <= z4 st.

(* The numbers a program instance gets in the calls it takes part in. *)
Fixpoint own (l : nat) (masks : list (nat -> bool)) (xs : list (nat -> Z)) : list Z :=
  match masks, xs with
  | m :: ms, x :: rest => if m l then x l :: own l ms rest else own l ms rest
  | _, _ => nil
  end.
