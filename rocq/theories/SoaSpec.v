(** What arrays of [soa<w>] structures should do (docs/ispc.rst 3755-3822): the
    elements lie where the "effective declaration" puts them, and the code that uses
    the array means what it would mean for an array of ordinary structures. *)
From Coq Require Import ZArith List Bool Lia.
From Verif Require Import Bits SoaModel.
Import ListNotations.
Open Scope Z_scope.

(** * Where the elements are *)

(** The effective declaration of the [soa<w>] variant of a type: every datum [x]
    becomes an array [x[w]]. *)
Fixpoint declared (w : nat) (t : sty) : sty :=
  match t with
  | SBasic s a => SArr w (SBasic s a)
  | SArr n e => SArr n (declared w e)
  | SStruct fs => SStruct (map (declared w) fs)
  end.

(** Parts of a datum: array elements and members. *)
Inductive part := Elt (i : Z) | Fld (k : nat).

(** The type of a part, if there is such a part (the indices are within bounds). *)
Fixpoint type_at (t : sty) (p : list part) : option sty :=
  match p with
  | [] => Some t
  | Elt i :: p' =>
      match t with
      | SArr n e => if (0 <=? i) && (i <? Z.of_nat n) then type_at e p' else None
      | _ => None
      end
  | Fld k :: p' =>
      match t with
      | SStruct fs => match nth_error fs k with Some f => type_at f p' | None => None end
      | _ => None
      end
  end.

(** The place of a part in the memory of an ordinary datum of type [t]. *)
Fixpoint place (t : sty) (p : list part) : Z :=
  match p with
  | [] => 0
  | Elt i :: p' =>
      match t with
      | SArr _ e => i * sizeof e + place e p'
      | _ => 0
      end
  | Fld k :: p' =>
      match t with
      | SStruct fs => match nth_error fs k with Some f => field_off fs k + place f p' | None => 0 end
      | _ => 0
      end
  end.

(** The place in memory of the part [p], of a basic type, of the element [i] of the
    array of SOA structures at [base]: it is the part
    [arr[i / w].p[i % w]] of an ordinary array of the declared type. *)
Definition soa_place (w : nat) (t : sty) (base i : Z) (p : list part) : Z :=
  base + place (SArr 1 (declared w t)) (Elt (i / Z.of_nat w) :: p ++ [Elt (i mod Z.of_nat w)]).

(** * The code *)

(** The part an access expression is for. *)
Definition part_of (a : access) : part :=
  match a with AIdx _ i => Elt i | AMem k => Fld k end.

Definition parts_of (as_ : list access) : list part := map part_of as_.

(** The indices are within the range of their types, which for varying indices of 32
    bits is that of the positive [int32]s (src/expr.cpp 5374). *)
Definition index_in_type (a : access) : Prop :=
  match a with
  | AIdx (KVarI32 | KVarU32) i => 0 <= i < 2 ^ 31
  | AIdx (KUni | KVar64) i => 0 <= i < 2 ^ 63
  | AMem _ => True
  end.

(** No array of arrays is indexed. *)
Fixpoint single_index (as_ : list access) : bool :=
  match as_ with
  | AIdx _ _ :: ((AIdx _ _ :: _) as r) => false
  | _ :: r => single_index r
  | [] => true
  end.

(** The width of [soa<>] must be a power of two (src/decl.cpp 434-438) and is a
    positive [int]. *)
Definition width_ok (w : nat) : Prop := exists k : nat, (k <= 30)%nat /\ w = (2 ^ k)%nat.

(** Basic types have a size that is a multiple of their alignment. *)
Fixpoint type_ok (t : sty) : bool :=
  match t with
  | SBasic s a => (0 <? a) && (0 <? s) && (s mod a =? 0)
  | SArr _ e => type_ok e
  | SStruct fs => forallb type_ok fs
  end.

(** The array has [n] SOA structures, that is, [n * w] elements; it lies within the
    address space. *)
Definition array_ok (w n : nat) (t : sty) (base : Z) : Prop :=
  width_ok w /\ type_ok t = true /\ (exists fs, t = SStruct fs) /\ 0 <= base /\
  base + Z.of_nat n * sizeof (declared w t) < 2 ^ 64.

(** * Programs on an array of ordinary structures *)

(** The value is one of the type. *)
Fixpoint val_ok (t : sty) (v : val) : Prop :=
  match t, v with
  | SBasic s _, VBytes bs => Z.of_nat (length bs) = s
  | SArr n e, VColl vs =>
      length vs = n /\
      (fix all (vs : list val) : Prop := match vs with [] => True | v :: r => val_ok e v /\ all r end) vs
  | SStruct fs, VColl vs =>
      (fix all (fs : list sty) (vs : list val) : Prop :=
         match fs, vs with
         | [], [] => True
         | f :: fr, v :: vr => val_ok f v /\ all fr vr
         | _, _ => False
         end) fs vs
  | _, _ => False
  end.

Definition part_index (p : part) : nat := match p with Elt i => Z.to_nat i | Fld k => k end.

(** The value of a part. *)
Fixpoint get (v : val) (p : list part) : option val :=
  match p with
  | [] => Some v
  | x :: p' =>
      match v with
      | VColl vs => match nth_error vs (part_index x) with Some u => get u p' | None => None end
      | VBytes _ => None
      end
  end.

Fixpoint update {A} (l : list A) (k : nat) (x : A) : list A :=
  match l, k with
  | [], _ => []
  | _ :: r, O => x :: r
  | a :: r, S k' => a :: update r k' x
  end.

(** Assigning to a part. *)
Fixpoint set (v : val) (p : list part) (x : val) : val :=
  match p with
  | [] => x
  | y :: p' =>
      match v with
      | VColl vs =>
          match nth_error vs (part_index y) with
          | Some u => VColl (update vs (part_index y) (set u p' x))
          | None => v
          end
      | VBytes _ => v
      end
  end.

(** An array of ordinary structures: the value of each element.  Loads and stores of
    an element or a part of it. *)
Definition aos := Z -> val.

Definition aos_exec (arr : aos) (s : stmt) : aos * option val :=
  match s with
  | SLoad (AIdx _ i :: r) => (arr, get (arr i) (parts_of r))
  | SStore (AIdx _ i :: r) v =>
      ((fun j => if j =? i then set (arr i) (parts_of r) v else arr j), None)
  | _ => (arr, None)
  end.

Fixpoint aos_run (arr : aos) (p : list stmt) : aos * list (option val) :=
  match p with
  | [] => (arr, [])
  | s :: r => let '(a1, o) := aos_exec arr s in
              let '(a2, os) := aos_run a1 r in
              (a2, o :: os)
  end.

(** An access to the array: within bounds, with indices in the range of their types. *)
Definition access_ok (w n : nat) (t : sty) (as_ : list access) (u : sty) : Prop :=
  exists k i r, as_ = AIdx k i :: r /\ 0 <= i < Z.of_nat n * Z.of_nat w /\
    type_at t (parts_of r) = Some u /\ Forall index_in_type as_ /\ single_index as_ = true.

Definition stmt_ok (w n : nat) (t : sty) (s : stmt) : Prop :=
  match s with
  | SLoad as_ => exists u, access_ok w n t as_ u
  | SStore as_ v => exists u, access_ok w n t as_ u /\ val_ok u v
  end.

(** The memory of the array of SOA structures holds the elements. *)
Definition holds (w n : nat) (t : sty) (base : Z) (m : memory) (arr : aos) : Prop :=
  forall i, 0 <= i < Z.of_nat n * Z.of_nat w ->
    val_ok t (arr i) /\
    forall p s a, type_at t p = Some (SBasic s a) ->
      get (arr i) p = Some (VBytes (read_bytes m (soa_place w t base i p) s)).

(** The pointer is [&arr[i]], for an element [i] of the array. *)
Definition points_to (w n : nat) (t : sty) (base : Z) (l : lval) (i : Z) : Prop :=
  0 <= i < Z.of_nat n * Z.of_nat w /\
  exists k, index_in_type (AIdx k i) /\ eval w (lvar base (SArr n t)) [AIdx k i] = Some l.

(** The array after the instances that are on have assigned to their elements. *)
Definition assigned (lanes : list (bool * Z * val)) (arr arr' : aos) : Prop :=
  (forall i v, In (true, i, v) lanes -> arr' i = v) /\
  (forall j, (forall v, ~ In (true, j, v) lanes) -> arr' j = arr j).
