(** What the names of elements mean (docs/ispc.rst, "Short Vector Types"), and what a program instance
    sees of a short vector. *)
From Coq Require Import ZArith List Bool Ascii String.
From Verif Require Import SwizModel.
Import ListNotations.
Local Open Scope Z_scope.

(** The names of the elements, by element: x, y, z, w; r, g, b, a; and u, v. *)
Definition names : list (list ascii) :=
  [list_ascii_of_string "xyzw"; list_ascii_of_string "rgba"; list_ascii_of_string "uv"].
Definition named (c : ascii) (k : nat) : Prop := exists s, In s names /\ nth_error s k = Some c.

(** The type of the vector before the dot or arrow, and the address of its element [k] in lane [l]: the
    vectors of a varying vector lie side by side, the element [k] of all lanes together. *)
Definition vec_of (b : base) : vty := match b with BLval t _ | BArrow t _ | BTemp t _ => t end.
Definition elem_addr (W : nat) (t : vty) (p : ptr) (k l : nat) : Z :=
  at_lane p l + (if vv t then Z.of_nat (k * W + l) else Z.of_nat k).

(** The element [k] of the vector that the program instance [l] sees. *)
Definition sees (W : nat) (m : memory) (b : base) (k l : nat) : option Z :=
  match b with
  | BLval t p | BArrow t p => Some (m (elem_addr W t p k l))
  | BTemp t v => nth_error (nth k v []) (if vv t then l else 0%nat)
  end.

(** Whether different program instances may see different vectors. *)
Definition differs (b : base) : bool :=
  match b with
  | BLval t p | BArrow t p => vv t || is_pv p
  | BTemp t _ => vv t
  end.

(** A value without an address has its elements, in all lanes if it is varying. *)
Definition wf (W : nat) (b : base) : Prop :=
  match b with
  | BTemp t v => List.length v = vn t /\ Forall (fun e => List.length e = if vv t then W else 1%nat) v
  | _ => True
  end.

(** Every letter names an element that the vector has. *)
Definition valid (b : base) (id : list ascii) : Prop :=
  id <> [] /\ forall c, In c id -> exists k, named c k /\ (k < vn (vec_of b))%nat.

(** The result has the named elements in the order of the letters: [res] is their list, each one value, or
    one for each lane; in lanes that are on they are those that the program instance sees. *)
Definition is_elements (W : nat) (m : memory) (mask : nat -> bool) (b : base) (id : list ascii)
    (res : list (list (option Z))) : Prop :=
  List.length res = List.length id /\
  forall i c k, nth_error id i = Some c -> named c k ->
    List.length (nth i res []) = (if differs b then W else 1%nat) /\
    forall l, (l < W)%nat -> mask l = true ->
      nth_error (nth i res []) (if differs b then l else 0%nat) = Some (sees W m b k l).

(** The two ways of writing a swizzle that do not work: through a varying pointer to varying vectors, and
    with an arrow behind a varying pointer to uniform vectors. *)
Definition through_varying (b : base) : Prop :=
  match b with
  | BLval t (PV _) => vv t = true
  | BArrow _ (PV _) => True
  | _ => False
  end.
