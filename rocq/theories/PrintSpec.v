(** What print and assert are documented to do (docs/ispc.rst 6395-6460). *)

From Coq Require Import ZArith Bool Ascii String List.
From Verif Require Import Bits PrintModel.
Import ListNotations.
Open Scope Z_scope.

(** The format with its percent signs replaced. *)
Fixpoint replace (format : text) (shown : list text) : text :=
  match format with
  | [] => []
  | c :: r => if Ascii.eqb c "%" then hd [] shown ++ replace r (tl shown) else c :: replace r shown
  end.

(** The text of one value: integers in decimal, whatever their type. *)
Definition show (number : base -> Z -> text) (k : kind) (v : Z) : text :=
  match k with
  | KBool => if v =? 0 then str "false" else str "true"
  | KFloat16 | KFloat => number TFloat v
  | KDouble => number TDouble v
  | KPtr => number TPtr v
  | _ => decimal v
  end.

Fixpoint join (sep : text) (l : list text) : text :=
  match l with
  | [] => []
  | [x] => x
  | x :: r => x ++ sep ++ join sep r
  end.

(** A varying value: those of the instances that are not executing in double
    parentheses. *)
Definition show_lane (number : base -> Z -> text) (k : kind) (mask : Z) (vals : list Z) (lane : nat) : text :=
  let t := show number k (nth lane vals 0) in
  if Z.testbit mask (Z.of_nat lane) then t else str "((" ++ t ++ str "))".

Definition show_arg (number : base -> Z -> text) (width : nat) (mask : Z) (a : arg) : text :=
  if a_varying a then
    str "[" ++ join (str ",") (map (show_lane number (a_kind a) mask (a_vals a)) (seq 0 width)) ++ str "]"
  else show number (a_kind a) (nth 0 (a_vals a) 0).

(** The values of a type. *)
Definition in_kind (k : kind) (v : Z) : Prop :=
  match k with
  | KBool => v = 0 \/ v = 1
  | KInt8 => - 2 ^ 7 <= v < 2 ^ 7
  | KUInt8 => 0 <= v < 2 ^ 8
  | KInt16 => - 2 ^ 15 <= v < 2 ^ 15
  | KUInt16 => 0 <= v < 2 ^ 16
  | KInt32 => - 2 ^ 31 <= v < 2 ^ 31
  | KUInt32 => 0 <= v < 2 ^ 32
  | KInt64 => - 2 ^ 63 <= v < 2 ^ 63
  | KUInt64 => 0 <= v < 2 ^ 64
  | KPtr => 0 <= v < 2 ^ 64
  | _ => True
  end.

Definition arg_ok (width : nat) (a : arg) : Prop :=
  a_kind a <> KOther /\ Forall (in_kind (a_kind a)) (a_vals a) /\
  List.length (a_vals a) = if a_varying a then width else 1%nat.

(** The texts of numbers contain no null character. *)
Definition number_ok (number : base -> Z -> text) : Prop := forall b v, ~ In NUL (number b v).

Definition percents (format : text) : nat := List.length (filter (fun c => Ascii.eqb c "%") format).

(** A varying boolean printed when some instance is not executing. *)
Definition bool_off (width : nat) (mask : Z) (a : arg) : Prop :=
  a_varying a = true /\ a_kind a = KBool /\
  exists lane, (lane < width)%nat /\ Z.testbit mask (Z.of_nat lane) = false.

(** Masks and varying booleans in elements of [bits] bits, all on or all off. *)
Definition as_mask (bits : Z) (l : list bool) : mask_vec := map (fun b : bool => if b then Z.ones bits else 0) l.

(** The condition is false for an executing instance. *)
Definition fails (test mask : list bool) : Prop :=
  exists i, nth_error mask i = Some true /\ nth_error test i = Some false.
