(** C65, C66: where a C compiler puts the members of a declaration, and what a declaration needs before it. *)
From Coq Require Import List Bool Arith.
Import ListNotations.
From Verif Require Import CastModel HeaderModel.

Section Spec.
Variables (W dtw : nat) (psize : nat) (salign : sc -> nat) (valign : nat -> nat).

(** ** C data layout *)
(** Members in order, each at the next multiple of its alignment; the alignment of a structure is the largest of its members'
    and its own, and its size a multiple of it; elements of arrays follow each other. *)
Fixpoint c_end (k : nat) (ms : list (nat * nat)) : nat :=
  match ms with [] => k | (size, align) :: ms => c_end (round_up k align + size) ms end.
Fixpoint c_layout (c : cty) : nat * nat :=
  match c with
  | CScalar s => (ssize psize s, salign s)
  | CVec a n b => let al := Nat.max a (salign (SB b)) in (round_up (n * bsize b) al, al)
  | CArray n c => (n * fst (c_layout c), snd (c_layout c))
  | CStruct a ms =>
      let ls := map (fun m => match m with (k, c) => (fst (c_layout c), Nat.max k (snd (c_layout c))) end) ms in
      let al := Nat.max a (fold_right Nat.max 1 (map snd ls)) in
      (round_up (c_end 0 ls) al, al)
  | CBad => (0, 0)
  end.
(** The offset of a member, an element, an element of a member... *)
Fixpoint c_offset (c : cty) (p : list nat) {struct c} : option (nat * sc) :=
  match c with
  | CScalar s => match p with [] => Some (0, s) | _ => None end
  | CVec _ n b => match p with [i] => if i <? n then Some (i * bsize b, SB b) else None | _ => None end
  | CArray n c => match p with i :: p => if i <? n then shift (i * fst (c_layout c)) (c_offset c p) else None | [] => None end
  | CStruct _ ms =>
      match p with
      | [] => None
      | i :: p =>
          (fix go (k i : nat) (ms : list (nat * cty)) {struct ms} : option (nat * sc) :=
             match ms with
             | [] => None
             | (a, c) :: ms =>
                 let o := round_up k (Nat.max a (snd (c_layout c))) in
                 match i with O => shift o (c_offset c p) | S i => go (o + fst (c_layout c)) i ms end
             end) 0 i ms
      end
  | CBad => None
  end.

(** ** Assumptions about the target *)
(** A varying value fills its vector, the declaration of a short vector is padded to the size of the vector. *)
Definition abi : Prop :=
  (forall s, 0 < salign s) /\ (forall k, 0 < valign k) /\
  (forall s, salign s <= valign (W * ssize psize s) /\ round_up (W * ssize psize s) (valign (W * ssize psize s)) = W * ssize psize s) /\
  (forall n b, 0 < n -> let k := mem_count dtw n * bsize b in salign (SB b) <= valign k /\ round_up (n * bsize b) (valign k) = round_up k (valign k)).

(** ** The types the theorems are about *)
(** Left out: varying enumerations and varying pointers that are members, vectors that are not uniform, arrays of structures that are
    not uniform, structures without members or with an alignment of their own. *)
Fixpoint plain (arr : bool) (v : var) (t : ty) : bool :=
  match t with
  | TScalar x s => arr || match eff v x, s with Vary, SB _ => true | Vary, _ => false | _, _ => true end
  | TVector x n _ => negb (n =? 0) && match eff v x with Uni => true | _ => false end
  | TArray _ t => plain true v t
  | TStruct x _ al ms =>
      (al =? 0) && negb (length ms =? 0) && (negb arr || match eff v x with Uni => true | _ => false end) && forallb (plain false (eff v x)) ms
  end.
Definition is_bound (v : var) : Prop := v <> Unb.

(** ** What a declaration mentions *)
(** The types whose definition the C declaration of a member needs. *)
Fixpoint needs (arr : bool) (v : var) (t : ty) : list item :=
  match t with
  | TScalar _ (SEnum e) => [IEnum e]
  | TScalar _ _ => []
  | TVector _ n b => [IVec n b]
  | TArray _ t => needs true v t
  | TStruct x name _ _ => [IStruct (if arr then Uni else eff v x) name]
  end.
(** Every structure comes after what it needs. *)
Definition in_order (first : list item) (es : list entry) : Prop :=
  forall before i v ms after, es = before ++ (i, (v, ms)) :: after ->
  forall t x, In t ms -> In x (needs false v t) -> In x first \/ In x (map fst before).
(** Structures at any depth, except in arrays of structures that are not uniform. *)
Fixpoint uniform_arrays (arr : bool) (v : var) (t : ty) : bool :=
  match t with
  | TArray _ t => uniform_arrays true v t
  | TStruct x _ _ ms => (negb arr || match eff v x with Uni => true | _ => false end) && forallb (uniform_arrays false (eff v x)) ms
  | _ => true
  end.
(** No vectors other than uniform ones. *)
Fixpoint uniform_vectors_only (v : var) (t : ty) : bool :=
  match t with
  | TVector x _ _ => match eff v x with Uni => true | _ => false end
  | TArray _ t => uniform_vectors_only v t
  | TStruct x _ _ ms => forallb (uniform_vectors_only (eff v x)) ms
  | _ => true
  end.
Fixpoint no_soa (v : var) (t : ty) : bool :=
  match t with
  | TStruct x _ _ ms => match eff v x with Soa _ => false | _ => true end && forallb (no_soa (eff v x)) ms
  | TArray _ t => no_soa v t
  | _ => true
  end.
End Spec.

(** Data layouts with naturally aligned vectors, as on x86-64 and AArch64: a vector is aligned to its size rounded up to a power of
    two.  Of 32-bit ARM: 16-byte vectors are aligned to 8 bytes. *)
Definition natural (k : nat) : nat := 2 ^ Nat.log2_up k.
Definition arm32 (k : nat) : nat := if k =? 16 then 8 else natural k.
