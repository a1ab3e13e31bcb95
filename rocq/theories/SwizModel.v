(** The named elements of short vectors: v.x, p->y, a[i].zyx (src/expr.cpp, VectorMemberExpr).

    Simplifications: memory is a map from addresses to elements, and the unit of addresses is the size of
    one element of the vector, so that element [k] of a uniform vector is [k] further than the vector, and
    element [k] of lane [l] of a varying one [k * W + l] further, with [W] the gang size (the padding of
    vectors to a power of two elements comes after the elements and is left out).  References behave as
    uniform pointers (ctx.cpp:2290-2296).  Pointers to soa<> data (slice pointers) and the conversion of
    bool between its two representations are left out. *)
From Coq Require Import ZArith List Bool Ascii.
Import ListNotations.
Local Open Scope Z_scope.

Definition memory := Z -> Z.

(** The type of a short vector: number of elements, and whether it is varying. *)
Record vty := VT { vn : nat; vv : bool }.

(** A pointer: the same for all lanes, or one for each lane. *)
Inductive ptr := PU (a : Z) | PV (a : nat -> Z).
Definition is_pv (p : ptr) : bool := match p with PU _ => false | PV _ => true end.

(** The expression before the dot or the arrow: an expression with an address (a variable, a reference,
    *p, a[i]); a pointer, before an arrow; a value without an address (the result of a function), given
    by its elements, each with one value, or with one for each lane. *)
Inductive base :=
| BLval (t : vty) (p : ptr)
| BArrow (t : vty) (p : ptr)
| BTemp (t : vty) (v : list (list Z)).

(** expr.cpp:5682-5697 (exprVectorType): the type of the expression, which for what is reached through
    a varying pointer or index is varying (IndexExpr::GetTypeImpl 5104-5111, PtrDerefExpr::GetTypeImpl);
    for an arrow the type the pointer points to. *)
Definition expr_vec (b : base) : vty :=
  match b with
  | BLval t p => VT (vn t) (vv t || is_pv p)
  | BArrow t _ => t
  | BTemp t _ => t
  end.

(** expr.cpp:5467-5486 *)
Definition element_of (c : ascii) : Z :=
  match c with
  | "x" | "r" | "u" => 0
  | "y" | "g" | "v" => 1
  | "z" | "b" => 2
  | "w" | "a" => 3
  | _ => -1
  end%char.

(** expr.cpp:5864-5873: the element of a name, and whether an error is reported. *)
Definition element_number (b : base) (c : ascii) : Z * bool :=
  let idx := element_of c in
  if idx =? -1 then (idx, true)
  else if idx >=? Z.of_nat (vn (expr_vec b)) then (idx, true)
  else (idx, false).

(** MemberExpr::create (expr.cpp:5965-5970): the errors for a member of a short vector when the
    expression is read.  Only the first letter is looked at. *)
Definition create (b : base) (id : list ascii) : bool :=
  match id with
  | [] => true
  | c :: _ => negb (snd (element_number b c))
  end.

(** expr.cpp:5743-5784, the type of the address of a member: [None] where it has none, otherwise whether
    the pointer is varying and whether it points to a varying element. *)
Definition lvalue_type (b : base) (id : list ascii) : option (bool * bool) :=
  match id with
  | [_] =>
      match b with
      | BLval t p | BArrow t p => Some (is_pv p, vv t)
      | BTemp _ _ => None
      end
  | _ => None
  end.

(** expr.cpp:5699-5733: the type of a member, as number of elements (1: not a vector) and whether it is
    varying. *)
Definition member_type (b : base) (id : list ascii) : vty :=
  let t := VT (length id) (vv (expr_vec b)) in
  match lvalue_type b id with
  | Some (true, _) => VT (vn t) true
  | _ => t
  end.

Section W.
Variable W : nat.

(** The address of lane [l] of a pointer. *)
Definition at_lane (p : ptr) (l : nat) : Z := match p with PU a => a | PV a => a l end.

(** ctx.cpp:2425-2524 (AddElementOffset): the element number times the size of an element of the type the
    pointer points to. *)
Definition stride (varying : bool) : Z := if varying then Z.of_nat W else 1.
Definition add_element_offset (t : vty) (p : ptr) (k : Z) : ptr :=
  match p with
  | PU a => PU (a + k * stride (vv t))
  | PV a => PV (fun l => a l + k * stride (vv t))
  end.

(** expr.cpp:4885-4945 (lAddVaryingOffsetsIfNeeded): for varying pointers to varying elements each lane's
    pointer is moved to the lane's own element. *)
Definition add_varying_offsets (elem_varying : bool) (p : ptr) : ptr :=
  match p with
  | PV a => if elem_varying then PV (fun l => a l + Z.of_nat l) else p
  | PU _ => p
  end.

(** ctx.cpp:2733-2821 (LoadInst) and 2823-2920 (gather), for one element: the values of the lanes, of
    which there is only one for uniform elements.  A gather gives no particular value in lanes that are
    off. *)
Definition load (m : memory) (mask : nat -> bool) (p : ptr) (elem_varying : bool) : list (option Z) :=
  match p with
  | PU a =>
      if elem_varying then map (fun l => Some (m (a + Z.of_nat l))) (seq 0 W) else [Some (m a)]
  | PV a => map (fun l => if mask l then Some (m (a l)) else None) (seq 0 W)
  end.

(** The element [k] of a value without an address: it is stored in a temporary and read from there with
    all lanes on (expr.cpp:6008-6028, 5820-5833). *)
Definition of_temp (v : list (list Z)) (k : Z) : list (option Z) := map Some (nth (Z.to_nat k) v []).

(** MemberExpr::GetLValue (expr.cpp:6045-6074) for a short vector. *)
Definition get_lvalue (b : base) (id : list ascii) : option ptr :=
  match id with
  | [c] =>
      match b with
      | BLval t p | BArrow t p =>
          let k := fst (element_number b c) in
          if k =? -1 then None else Some (add_varying_offsets (vv t) (add_element_offset t p k))
      | BTemp _ _ => None
      end
  | _ => None
  end.

(** What the code that is generated for an expression does: nothing is generated because of an error; it
    writes more than its temporary holds; or the elements of its result, each with one value or one for
    each lane. *)
Inductive outcome := Error | Overrun | Value (v : list (list (option Z))).

(** expr.cpp:5791-5801: the elements of a swizzle, and whether there was an error. *)
Definition swizzle_indices (b : base) (id : list ascii) : list (Z * bool) := map (element_number b) id.

(** expr.cpp:5839-5857: the values of the elements are stored in a temporary of type [memberType], which
    has room for one value per element, or for one for each lane. *)
Definition fits (b : base) (r : list (option Z)) : bool :=
  Nat.eqb (length r) (if vv (expr_vec b) then W else 1).

(** VectorMemberExpr::GetValue, expr.cpp:5786-5862, for more than one letter. *)
Definition swizzle (m : memory) (mask : nat -> bool) (b : base) (id : list ascii) : outcome :=
  let ks := swizzle_indices b id in
  if existsb snd ks then Error
  else
    let r := map (fun ke => match b with
                            | BLval t p | BArrow t p =>
                                (* 5843-5850: no offsets for the lanes; the type of the element loaded
                                   through a uniform pointer is that of exprVectorType *)
                                load m mask (add_element_offset t p (fst ke)) (vv (expr_vec b))
                            | BTemp _ v => of_temp v (fst ke)
                            end) ks in
    if forallb (fits b) r then Value r else Overrun.

(** MemberExpr::GetValue, expr.cpp:5994-6037, for one letter. *)
Definition single (m : memory) (mask : nat -> bool) (b : base) (c : ascii) : outcome :=
  if snd (element_number b c) then Error
  else
    match b with
    | BTemp _ v => Value [of_temp v (fst (element_number b c))]
    | BLval t _ | BArrow t _ =>
        match get_lvalue b [c] with
        | Some p => Value [load m mask p (vv t)]
        | None => Error
        end
    end.

(** expr.cpp:5786-5789, after MemberExpr::create. *)
Definition get_value (m : memory) (mask : nat -> bool) (b : base) (id : list ascii) : outcome :=
  if create b id then
    match id with
    | [c] => single m mask b c
    | _ => swizzle m mask b id
    end
  else Error.

(** sizeof (expr.cpp:8908-8925): the number of values an expression's type holds.  Only the type of the
    expression is asked for. *)
Definition size_of (b : base) (id : list ascii) : option nat :=
  if create b id then
    Some (vn (member_type b id) * (if vv (member_type b id) then W else 1))%nat
  else None.

(** The store of one element (ctx.cpp:3343-3381 StoreInst): a uniform element is stored whatever lanes are
    on; a varying one with a masked store; through varying pointers with a scatter, lane by lane. *)
Definition upd (m : memory) (a x : Z) : memory := fun a' => if a' =? a then x else m a'.
Definition store (m : memory) (mask : nat -> bool) (p : ptr) (elem_varying : bool) (x : nat -> Z) : memory :=
  match p with
  | PU a =>
      if elem_varying then
        fold_left (fun m l => if mask l then upd m (a + Z.of_nat l) (x l) else m) (seq 0 W) m
      else upd m a (x 0%nat)
  | PV a => fold_left (fun m l => if mask l then upd m (a l) (x l) else m) (seq 0 W) m
  end.

(** The assignment of values [x] to a member: an error where the left side has no address
    (expr.cpp:3438-3472). *)
Definition assign (m : memory) (mask : nat -> bool) (b : base) (id : list ascii) (x : nat -> Z) : option memory :=
  if create b id then
    match get_lvalue b id, lvalue_type b id with
    | Some p, Some (_, ev) => Some (store m mask p ev x)
    | _, _ => None
    end
  else None.
End W.
