(** Arrays of [soa<w>] structures (C60). *)

From Coq Require Import ZArith List Bool Lia.
From Verif Require Import Bits SoaModel SoaSpec SoaProofs SoaProofs2 SoaProofs3 SoaProofs4.
Import ListNotations.
Open Scope Z_scope.

(** [arr[i].part] is where the effective declaration puts it.  Missing: arrays of
    arrays, and varying indices of 2^31 and above (see the refutations below). *)
Theorem C60_address_partial (w n : nat) (t : sty) (base : Z) (k : ikind) (i : Z) (r : list access) (s a : Z) :
  array_ok w n t base -> 0 <= i < Z.of_nat n * Z.of_nat w ->
  type_at t (parts_of r) = Some (SBasic s a) -> Forall index_in_type (AIdx k i :: r) ->
  single_index (AIdx k i :: r) = true ->
  exists l, eval w (lvar base (SArr n t)) (AIdx k i :: r) = Some l /\
    leaf_address l = Some (soa_place w t base i (parts_of r)).
Proof. exact (address_ok w n t base k i r s a). Qed.

(** Different parts of the elements do not share memory ... *)
Theorem C60_no_overlap (w n : nat) (t : sty) (base i : Z) (p : list part) (s a j : Z) (q : list part) (s' a' : Z) :
  array_ok w n t base ->
  0 <= i < Z.of_nat n * Z.of_nat w -> 0 <= j < Z.of_nat n * Z.of_nat w ->
  type_at t p = Some (SBasic s a) -> type_at t q = Some (SBasic s' a') -> (i, p) <> (j, q) ->
  soa_place w t base i p + s <= soa_place w t base j q \/
  soa_place w t base j q + s' <= soa_place w t base i p.
Proof. exact (parts_disjoint w n t base i p s a j q s' a'). Qed.

(** ... and lie within the memory of the array. *)
Theorem C60_within_array (w n : nat) (t : sty) (base i : Z) (p : list part) (s a : Z) :
  array_ok w n t base -> 0 <= i < Z.of_nat n * Z.of_nat w -> type_at t p = Some (SBasic s a) ->
  base <= soa_place w t base i p /\ 0 < s /\
  soa_place w t base i p + s <= base + Z.of_nat n * sizeof (llvm_type w t).
Proof. exact (leaf_in_array w n t base i p s a). Qed.

(** A program gets the values, and leaves those, that it would with an array of
    ordinary structures, and changes no memory outside the array.  Missing: as above. *)
Theorem C60_same_as_ordinary_array_partial (w n : nat) (t : sty) (base : Z) :
  array_ok w n t base -> forall p m arr m' arr' os os',
  Forall (stmt_ok w n t) p -> holds w n t base m arr ->
  run w (lvar base (SArr n t)) m p = (m', os) -> aos_run arr p = (arr', os') ->
  os = os' /\ holds w n t base m' arr' /\
  (forall x, x < base \/ base + Z.of_nat n * sizeof (llvm_type w t) <= x -> m' x = m x).
Proof. exact (run_ok w n t base). Qed.

(** Any memory holds the elements of some array. *)
Theorem C60_memory_is_an_array (w n : nat) (t : sty) (base : Z) (m : memory) :
  array_ok w n t base -> exists arr, holds w n t base m arr.
Proof. intros H. eexists. exact (holds_some w n t base m H). Qed.

(** Pointer arithmetic goes from element to element ... *)
Theorem C60_pointer_plus (w n : nat) (t : sty) (base : Z) (k : ikind) (p q : lval) (i d : Z) :
  array_ok w n t base -> ibits k = 64 -> Z.of_nat n * Z.of_nat w <= 2 ^ 62 ->
  points_to w n t base p i -> points_to w n t base q (i + d) -> pointer_add k w p d = q.
Proof. exact (points_add w n t base k p q i d). Qed.

Theorem C60_pointer_minus (w n : nat) (t : sty) (base : Z) (k : ikind) (p q : lval) (i d : Z) :
  array_ok w n t base -> ibits k = 64 -> Z.of_nat n * Z.of_nat w <= 2 ^ 62 ->
  points_to w n t base p i -> points_to w n t base q (i - d) -> pointer_sub k w p d = q.
Proof. exact (points_sub w n t base k p q i d). Qed.

(** ... whatever the steps ... *)
Theorem C60_pointer_walk (w n : nat) (t : sty) (base : Z) (k : ikind) :
  array_ok w n t base -> ibits k = 64 ->
  forall ds p q i, Forall (fun d => - 2 ^ 62 <= d < 2 ^ 62) ds ->
  points_to w n t base p i -> points_to w n t base q (i + fold_right Z.add 0 ds) ->
  fold_left (fun p d => pointer_add k w p d) ds p = q.
Proof. exact (points_walk w n t base k). Qed.

(** ... and the difference of pointers is that of the indices. *)
Theorem C60_pointer_difference (w n : nat) (t : sty) (base : Z) (p q : lval) (i j : Z) :
  array_ok w n t base -> 0 < sizeof (declared w t) ->
  Z.of_nat n * sizeof (declared w t) < 2 ^ 63 -> Z.of_nat n * Z.of_nat w < 2 ^ 63 ->
  points_to w n t base p i -> points_to w n t base q j -> pointer_diff w p q = i - j.
Proof. exact (points_diff w n t base p q i j). Qed.

(** Varying accesses: every instance that is on gets its element ... *)
Theorem C60_gather (w n : nat) (t : sty) (base : Z) (m : memory) (arr : aos) (lanes : list (bool * lval * Z)) :
  array_ok w n t base -> holds w n t base m arr ->
  Forall (fun '(on, l, i) => on = true -> points_to w n t base l i) lanes ->
  gather w m (map fst lanes) = map (fun '(on, _, i) => if on : bool then Some (arr i) else None) lanes.
Proof. exact (gather_ok w n t base m arr lanes). Qed.

(** ... and assigns to its element only; those that are off assign to none. *)
Theorem C60_scatter (w n : nat) (t : sty) (base : Z) (m : memory) (arr arr' : aos)
  (lanes : list (bool * lval * Z * val)) :
  array_ok w n t base -> holds w n t base m arr ->
  Forall (fun '(on, l, i, v) => on = true -> points_to w n t base l i /\ val_ok t v) lanes ->
  NoDup (map (fun '(on, l, i, v) => i) (filter (fun '(on, l, i, v) => on) lanes)) ->
  assigned (map (fun '(on, l, i, v) => (on, i, v)) lanes) arr arr' ->
  holds w n t base (scatter w m t (map (fun '(on, l, i, v) => (on, l, v)) lanes)) arr' /\
  (forall x, x < base \/ base + Z.of_nat n * sizeof (llvm_type w t) <= x ->
     scatter w m t (map (fun '(on, l, i, v) => (on, l, v)) lanes) x = m x).
Proof. exact (scatter_ok w n t base m arr arr' lanes). Qed.

(** * Examples *)

Definition float_t : sty := SBasic 4 4.
Definition point : sty := SStruct [float_t; float_t; float_t].

(** [struct Foo { double d; float y[3]; int8 c; Point p[2]; }] *)
Definition foo : sty := SStruct [SBasic 8 8; SArr 3 float_t; SBasic 1 1; SArr 2 point].

Example C60_array : array_ok 8 10 point 4096 /\ array_ok 8 10 foo 4096.
Proof.
  split; (split; [exists 3%nat; split; [lia|reflexivity]|]; split; [reflexivity|]; split; [eexists; reflexivity|];
          split; [lia|reflexivity]).
Qed.

(** [pts[10].x]: the third x value of the second structure (docs/ispc.rst 3797-3806). *)
Example C60_documented :
  (exists l, eval 8 (lvar 4096 (SArr 10 point)) [AIdx KUni 10; AMem 0] = Some l /\
     leaf_address l = Some (4096 + 96 + 2 * 4)) /\
  soa_place 8 point 4096 10 [Fld 0] = 4096 + 96 + 2 * 4.
Proof. split; [eexists; split; reflexivity|reflexivity]. Qed.

(** A member of an element of a member: [arr[13].p[1].y]. *)
Example C60_nested_member :
  (exists l, eval 8 (lvar 4096 (SArr 10 foo)) [AIdx KVarI32 13; AMem 3; AIdx KUni 1; AMem 1] = Some l /\
     leaf_address l = Some (soa_place 8 foo 4096 13 [Fld 3; Elt 1; Fld 1])) /\
  access_ok 8 10 foo [AIdx KVarI32 13; AMem 3; AIdx KUni 1; AMem 1] float_t.
Proof.
  split; [eexists; split; reflexivity|].
  exists KVarI32, 13, [AMem 3; AIdx KUni 1; AMem 1]. repeat split; try lia; repeat constructor; cbn; lia.
Qed.

Example C60_program :
  Forall (stmt_ok 8 10 point)
    [SStore [AIdx KUni 10] (VColl [VBytes [1; 2; 3; 4]; VBytes [5; 6; 7; 8]; VBytes [9; 10; 11; 12]]);
     SStore [AIdx KVarI32 11; AMem 1] (VBytes [21; 22; 23; 24]); SLoad [AIdx KVar64 10; AMem 1]; SLoad [AIdx KUni 11; AMem 1]] /\
  snd (run 8 (lvar 4096 (SArr 10 point)) (fun _ => 0)
    [SStore [AIdx KUni 10] (VColl [VBytes [1; 2; 3; 4]; VBytes [5; 6; 7; 8]; VBytes [9; 10; 11; 12]]);
     SStore [AIdx KVarI32 11; AMem 1] (VBytes [21; 22; 23; 24]); SLoad [AIdx KVar64 10; AMem 1]; SLoad [AIdx KUni 11; AMem 1]])
  = [None; None; Some (VBytes [5; 6; 7; 8]); Some (VBytes [21; 22; 23; 24])].
Proof.
  split; [|reflexivity].
  assert (A : forall k i r u, 0 <= i < 80 -> type_at point (parts_of r) = Some u -> Forall index_in_type (AIdx k i :: r) ->
     single_index (AIdx k i :: r) = true -> access_ok 8 10 point (AIdx k i :: r) u).
  { intros k i r u H1 H2 H3 H4. exists k, i, r. repeat split; auto; lia. }
  repeat constructor.
  - exists point. split; [apply A; cbn; auto; try lia; repeat constructor; cbn; lia|]. repeat split.
  - exists float_t. split; [apply A; cbn; auto; try lia; repeat constructor; cbn; lia|]. reflexivity.
  - exists float_t. apply A; cbn; auto; try lia; repeat constructor; cbn; lia.
  - exists float_t. apply A; cbn; auto; try lia; repeat constructor; cbn; lia.
Qed.

Example C60_pointer_ex :
  (exists p q, points_to 8 10 point 4096 p 6 /\ points_to 8 10 point 4096 q 17 /\
     pointer_add KUni 8 p 11 = q /\ pointer_sub KUni 8 q 11 = p /\ pointer_diff 8 q p = 11).
Proof.
  eexists. eexists. split; [split; [lia|exists KUni; split; [cbn; lia|reflexivity]]|].
  split; [split; [lia|exists KUni; split; [cbn; lia|reflexivity]]|]. repeat split.
Qed.

(** * Refutations *)

(** In an array of arrays of [soa<>] structures, [soa<8> Point g[2][16]], the elements
    [g[0][1]] and [g[1][0]] are at the same place: the first index is already split
    between structure and slice (src/expr.cpp 5240-5250, src/ctx.cpp 2372-2390), and
    what is left of it is added to the second. *)
Theorem C60_two_dimensions_refuted :
  exists l l' a,
    eval 8 (lvar 4096 (SArr 2 (SArr 16 point))) [AIdx KUni 0; AIdx KUni 1; AMem 0] = Some l /\
    eval 8 (lvar 4096 (SArr 2 (SArr 16 point))) [AIdx KUni 1; AIdx KUni 0; AMem 0] = Some l' /\
    leaf_address l = Some a /\ leaf_address l' = Some a.
Proof. do 3 eexists. repeat split; reflexivity. Qed.

(** [struct Foo { float m[2][2]; }; soa<8> Foo f[4]]: [f[0].m[0][1]] and
    [f[1].m[0][0]] are at the same place.  The member is found with a frozen slice
    pointer, but the type of [f[0].m[0]] is that of an ordinary slice pointer
    (src/expr.cpp 5319-5324), so the second index moves to another slice. *)
Theorem C60_member_array_of_arrays_refuted :
  let t := SStruct [SArr 2 (SArr 2 float_t)] in
  array_ok 8 4 t 4096 /\
  exists l l' a,
    eval 8 (lvar 4096 (SArr 4 t)) [AIdx KUni 0; AMem 0; AIdx KUni 0; AIdx KUni 1] = Some l /\
    eval 8 (lvar 4096 (SArr 4 t)) [AIdx KUni 1; AMem 0; AIdx KUni 0; AIdx KUni 0] = Some l' /\
    leaf_address l = Some a /\ leaf_address l' = Some a.
Proof.
  split.
  - split; [exists 3%nat; split; [lia|reflexivity]|]. split; [reflexivity|]. split; [eexists; reflexivity|].
    split; [lia|reflexivity].
  - do 3 eexists. repeat split; reflexivity.
Qed.

(** For the same reason [&f[0].y[0] + 1] is not [&f[0].y[1]], as it is in an ordinary
    array of structures with a member [float y[3]], but [&f[1].y[0]]. *)
Theorem C60_pointer_into_member_array_refuted :
  exists l l1 l2 a a1,
    eval 8 (lvar 4096 (SArr 10 foo)) [AIdx KUni 0; AMem 1; AIdx KUni 0] = Some l /\
    eval 8 (lvar 4096 (SArr 10 foo)) [AIdx KUni 0; AMem 1; AIdx KUni 1] = Some l1 /\
    eval 8 (lvar 4096 (SArr 10 foo)) [AIdx KUni 1; AMem 1; AIdx KUni 0] = Some l2 /\
    leaf_address (pointer_add KUni 8 l 1) = Some a /\ leaf_address l1 = Some a1 /\ leaf_address l2 = Some a /\
    a <> a1.
Proof. do 5 eexists. repeat split; try reflexivity. discriminate. Qed.

(** A varying [uint32] index of 2^31 gets to the wrong element, although ordinary
    arrays may be indexed with it ([extend]): the sign bit of the index is shifted in
    (src/ctx.cpp 2271) and then the result is taken for unsigned. *)
Theorem C60_uint32_index_refuted :
  let n := Z.to_nat (2 ^ 29) in
  array_ok 8 n point 0 /\ 0 <= 2 ^ 31 < Z.of_nat n * Z.of_nat 8 /\ extend KVarU32 (2 ^ 31) = 2 ^ 31 /\
  exists l a, eval 8 (lvar 0 (SArr n point)) [AIdx KVarU32 (2 ^ 31); AMem 0] = Some l /\
    leaf_address l = Some a /\ a <> soa_place 8 point 0 (2 ^ 31) [Fld 0].
Proof.
  cbv zeta. set (n := Z.to_nat (2 ^ 29)).
  assert (E : Z.of_nat n = 2 ^ 29) by (apply Z2Nat.id; discriminate).
  split.
  - split; [exists 3%nat; split; [lia|reflexivity]|]. split; [reflexivity|]. split; [eexists; reflexivity|].
    split; [lia|]. rewrite E. reflexivity.
  - rewrite E. split; [split; [discriminate|reflexivity]|]. split; [reflexivity|].
    clearbody n. do 2 eexists. repeat split; try reflexivity. discriminate.
Qed.

Print Assumptions C60_address_partial.
Print Assumptions C60_no_overlap.
Print Assumptions C60_within_array.
Print Assumptions C60_same_as_ordinary_array_partial.
Print Assumptions C60_memory_is_an_array.
Print Assumptions C60_pointer_plus.
Print Assumptions C60_pointer_minus.
Print Assumptions C60_pointer_walk.
Print Assumptions C60_pointer_difference.
Print Assumptions C60_gather.
Print Assumptions C60_scatter.
Print Assumptions C60_two_dimensions_refuted.
Print Assumptions C60_member_array_of_arrays_refuted.
Print Assumptions C60_pointer_into_member_array_refuted.
Print Assumptions C60_uint32_index_refuted.
