(** What allocation and deallocation promise. *)
From Coq Require Import ZArith List Bool.
From Verif Require Import HeapModel.
Import ListNotations.
Local Open Scope Z_scope.

(** Two memory ranges do not overlap, and the blocks can be told apart by their addresses. *)
Definition apart (a n a' n' : Z) : Prop := (a + n <= a' \/ a' + n' <= a) /\ a <> a'.

(** The C library keeps its promise: memory it returns is aligned and does not overlap any live block. *)
Definition good (A : allocator) : Prop :=
  forall h al n a, A h al n = Some a -> a <> 0 -> 0 < a /\ a mod al = 0 /\
    forall b, In b h -> apart a n (b_addr b) (b_size b).

(** No two live blocks overlap. *)
Definition wf (h : heap) : Prop :=
  ForallOrdPairs (fun b b' => apart (b_addr b) (b_size b) (b_addr b') (b_size b')) h /\ Forall (fun b => b_addr b <> 0) h.

(** Sizes the compiled code can compute: a signed 32-bit or, with --addressing=64 and the libraries other than the
    generic one, a signed 64-bit number. *)
Definition fits (c : config) (n : Z) : Prop :=
  0 <= n < 2 ^ 31 \/ (is32 c = false /\ force32 c = false /\ generic c = false /\ 0 <= n < 2 ^ 63).

(** The documentation's rule for the rate of the allocated type (ispc.rst, Dynamic Memory Allocation): uniform
    with new, varying with uniform new. *)
Definition documented_size (c : config) (uniform_new : bool) (t : atype) : Z :=
  match t_rate t with
  | Some Uniform => t_size t
  | Some Varying => Z.of_nat (width c) * t_size t
  | None => if uniform_new then Z.of_nat (width c) * t_size t else t_size t
  end.

(** The new blocks of a gang: for every executing instance with a pointer that is not null one of the given size. *)
Inductive lane_blocks (al : Z) : list bool -> list Z -> list Z -> list block -> Prop :=
| LB_nil : lane_blocks al [] [] [] []
| LB_off mask sizes ptrs bs s : lane_blocks al mask sizes ptrs bs -> lane_blocks al (false :: mask) (s :: sizes) (0 :: ptrs) bs
| LB_none mask sizes ptrs bs s : lane_blocks al mask sizes ptrs bs -> lane_blocks al (true :: mask) (s :: sizes) (0 :: ptrs) bs
| LB_block mask sizes ptrs bs s p : p <> 0 -> lane_blocks al mask sizes ptrs bs ->
    lane_blocks al (true :: mask) (s :: sizes) (p :: ptrs) ({| b_addr := p; b_size := s; b_align := al |} :: bs).

(** The pointers of the executing instances. *)
Fixpoint selected (mask : list bool) (ptrs : list Z) : list Z :=
  match mask, ptrs with
  | m :: mask, p :: ptrs => (if m then [p] else []) ++ selected mask ptrs
  | _, _ => []
  end.
