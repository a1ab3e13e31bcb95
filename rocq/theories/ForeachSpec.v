(** What the iteration constructs should do (docs/ispc.rst, "Parallel Iteration Statements:
    "foreach" and "foreach_tiled"", "foreach_active", "foreach_unique"), independent of the emitted
    control flow. *)
From Coq Require Import ZArith List Bool.
From Verif Require Import ForeachModel.
Import ListNotations.
Local Open Scope Z_scope.

(** The integers [a, a+1, ..., b-1], in order; none if [b <= a]. *)
Definition zrange (a b : Z) : list Z := map (fun k => a + Z.of_nat k) (seq 0 (Z.to_nat (b - a))).

(** The Cartesian product of lists, in lexicographic order. *)
Fixpoint product (ls : list (list Z)) : list (list Z) :=
  match ls with
  | [] => [[]]
  | xs :: rest => flat_map (fun x => map (cons x) (product rest)) xs
  end.

(** All points of an n-dimensional half-open box. *)
Definition box (starts ends : list Z) : list (list Z) :=
  product (map (fun p => zrange (fst p) (snd p)) (combine starts ends)).

(** The points one body execution processes: the index values of its active lanes. *)
Definition active_points (ev : event) : list (list (option Z)) :=
  map snd (filter fst (combine (ev_mask ev) (ev_index ev))).

(** All points a loop processes, execution after execution, lane after lane. *)
Definition processed (tr : list event) : list (list (option Z)) := flat_map active_points tr.

(** Every coordinate is a proper number (not the poison result of an overflow). *)
Definition numbers (ps : list (list Z)) : list (list (option Z)) := map (map Some) ps.

(** A bound pair for which the loop's 32-bit index arithmetic stays in range. *)
Definition bounds_in_range (W : nat) (s e : Z) : Prop :=
  - 2 ^ 31 <= s /\ s + Z.of_nat W <= 2 ^ 31 /\
  - 2 ^ 31 <= e /\ e + Z.of_nat W <= 2 ^ 31 /\
  - 2 ^ 31 <= e - s < 2 ^ 31.

(** The loop terminates normally having made exactly the body executions [tr]. *)
Definition foreach_does (W : nat) (tiled : bool) (starts ends : list Z) (tr : list event) : Prop :=
  exists fuel, let s := foreach_run W tiled starts ends fuel in pc s = Exit /\ trace s = tr.

(** The loop runs into undefined behaviour. *)
Definition foreach_undefined (W : nat) (tiled : bool) (starts ends : list Z) : Prop :=
  exists fuel, pc (foreach_run W tiled starts ends fuel) = Undefined.

(** The function calls [calls], made one after the other: the final state, and for every lane the
    result of the last call made on its behalf. *)
Fixpoint exec_calls {St R} (call : Z -> (nat -> bool) -> St -> St * (nat -> R))
    (calls : list (Z * (nat -> bool))) (s : St) (res : nat -> option R) : St * (nat -> option R) :=
  match calls with
  | [] => (s, res)
  | (p, m) :: rest =>
      let r := call p m s in
      exec_calls call rest (fst r) (fun l => if m l then Some (snd r l) else res l)
  end.

(** No two elements are related. *)
Definition pairwise_distinct {A} (same : A -> A -> bool) (xs : list A) : Prop :=
  ForallOrdPairs (fun a b => same a b = false) xs.

(** The 32-bit index arithmetic of a one-dimensional loop stays in range: the item count does, and so
    does every index of the last, possibly partial, vector of [W] items. *)
Definition no_index_overflow (W : nat) (s e : Z) : Prop :=
  - 2 ^ 31 <= e - s < 2 ^ 31 /\
  (s < e -> s + ((e - s + Z.of_nat W - 1) / Z.of_nat W) * Z.of_nat W <= 2 ^ 31).

Definition is_int32 (x : Z) : Prop := - 2 ^ 31 <= x < 2 ^ 31.
Definition power_of_two (W : nat) : Prop := exists k : nat, Z.of_nat W = 2 ^ Z.of_nat k.
