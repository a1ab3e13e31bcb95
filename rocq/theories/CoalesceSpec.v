(** Specification for gather coalescing (C35). *)

From Coq Require Import ZArith List Bool Lia.
From Verif Require Import Bits CoalesceModel.
Import ListNotations.
Open Scope Z_scope.

(** What a gather reads: the address of a lane is the base pointer plus the
    scaled variable offset plus the lane's constant, all sign-extended to 64
    bits (builtins/util.m4:7285-7330). *)
Definition address (e : env) (g : gather) (c : Z) : Z :=
  e (base g) + wraps (width g) (e (variable g)) * wraps 32 (e (scale g)) + wraps (width g) c.

(** The result of a gather with all lanes on, the variable offset being the
    same in all of them. *)
Definition gathered (mem : memory) (e : env) (g : gather) : vec :=
  map (fun c => Some (word mem (address e g c))) (consts g).

(** Constant offsets that are multiples of the element size, and not negative
    in the 32-bit gathers. *)
Definition plain (g : gather) : Prop :=
  forall c, In c (consts g) -> 0 <= c < 2 ^ (width g - (if is64 g then 0 else 1)) /\ (4 | c).

(** A scaled variable offset that has no overflow in 32 bits. *)
Definition no_overflow (e : env) (g : gather) : Prop :=
  0 <= e (scale g) < 2 ^ 31 /\
  (is64 g = false -> - 2 ^ 31 <= wraps 32 (e (variable g)) * e (scale g) < 2 ^ 31).

(** Vectors of the target's width. *)
Definition full (n : nat) (g : gather) : Prop := length (consts g) = n.

(** ** Blocks *)

(** The effect of an instruction on memory. *)
Definition effect (i : inst) (mem : memory) : memory :=
  match i with Write f | Fence f => f mem | _ => mem end.

(** Memory before instruction [pos]. *)
Definition memory_at (block : list inst) (mem : memory) (pos : nat) : memory :=
  fold_left (fun m i => effect i m) (firstn pos block) mem.

(** The value of the gather at [pos] in the given block ... *)
Definition value_before (e : env) (mem : memory) (block : list inst) (pos : nat) : option vec :=
  match nth_error block pos with
  | Some (Gather g) => Some (gathered (memory_at block mem pos) e g)
  | _ => None
  end.

(** ... and in the one that the pass leaves: the loads of a group are done
    where its first gather was. *)
Definition value_after (strict : bool) (n : nat) (p : plan) (e : env) (mem : memory) (block : list inst) (pos : nat)
  : option vec :=
  match p pos with
  | None => value_before e mem block pos
  | Some (first, k) =>
    match coalesce strict n e (memory_at block mem first) (group_of p first block) with
    | Some results => nth_error results k
    | None => None
    end
  end.

(** No thread writes to what this one reads. *)
Definition alone (block : list inst) : Prop := forall f mem, In (Fence f) block -> f mem = mem.

(** ** Faults *)

(** Which addresses can be read is decided by page. *)
Definition paged (mapped : Z -> Prop) : Prop :=
  forall a b, wrapu 64 a / 4096 = wrapu 64 b / 4096 -> mapped (wrapu 64 a) -> mapped (wrapu 64 b).

(** ** When elements are put in two at a time *)

(** A bitcast of a vector with a poison element makes its neighbour poison
    too ([strict]).  That does not matter if no two-wide loads were chosen, or
    no lane with an even number reads the element just before that of the next
    lane. *)
Definition no_halves (strict : bool) (group : list gather) : Prop :=
  strict = false \/
  (forall ops o, group_loads group = Some ops -> In o ops -> count o <> 2) \/
  (forall i x y, Nat.even i = true ->
     nth_error (flat_map consts group) i = Some x -> nth_error (flat_map consts group) (i + 1) = Some y ->
     wrapu 64 (x + 4) <> y).

(** The widths of targets for which the results are put together properly. *)
Definition width_ok (n gathers : nat) : Prop :=
  n = 4%nat \/ n = 8%nat \/ n = 16%nat \/ ((n = 32%nat \/ n = 64%nat) /\ gathers = 1%nat).
