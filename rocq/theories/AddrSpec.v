(** Specification for the properties about vector index expressions and
    gather/scatter addresses (C37, C58, C59). *)

From Coq Require Import ZArith List Bool Lia.
From Verif Require Import Bits AddrModel.
Import ListNotations.
Open Scope Z_scope.

(** ** Executions *)

(** Every PHI node in [e] has been executed. *)
Fixpoint defined (r : env) (e : exp) : Prop :=
  match e with
  | Bin _ _ _ a b => defined r a /\ defined r b
  | Cast _ _ a => defined r a
  | Insert a s _ => defined r a /\ defined r s
  | Shuf a _ => defined r a
  | Phi _ _ p => e_phi r p <> None
  | _ => True
  end.

(** One step of a run: any PHI nodes take, at the same time, the value that one
    of their incoming values has now; opaque values change as they like. *)
Definition step (P : prog) (r r' : env) : Prop :=
  forall p,
    e_phi r' p = e_phi r p \/
    exists i, In i (P p) /\ defined r i /\ e_phi r' p = Some (eval r i).

(** A run: nothing executed at first, then steps. *)
Definition run (P : prog) (tr : nat -> env) : Prop :=
  (forall p, e_phi (tr 0%nat) p = None) /\
  (forall t, step P (tr t) (tr (S t))).

(** ** Well-formed LLVM values: vectors of [n] lanes and scalars *)

(** [T] gives the type of each PHI node. *)
Fixpoint well (n : nat) (T : nat -> bool * Z) (vec : bool) (e : exp) : Prop :=
  match e with
  | Zero w => vec = true /\ 0 < w
  | Data w l => vec = true /\ 0 < w /\ length l = n /\ Forall (in_u w) l
  | CVec w l => vec = true /\ 0 < w /\ length l = n
  | SInt w z => vec = false /\ 0 < w
  | Undef w => vec = true /\ 0 < w
  | Bin _ _ w a b =>
      0 < w /\ well n T vec a /\ well n T vec b /\ width a = w /\ width b = w
  | Cast c w a =>
      0 < w /\ well n T vec a /\
      match c with
      | Trunc => w <= width a
      | SExt | ZExt => width a <= w
      | OtherCast _ => True
      end
  | Insert a s i =>
      vec = true /\ (i < n)%nat /\ well n T true a /\ well n T false s /\ width s = width a
  | Shuf a m =>
      vec = true /\ well n T true a /\ length m = n /\ Forall (fun j => (j < n)%nat) m
  | Phi v w p => v = vec /\ T p = (v, w) /\ 0 < w
  | Leaf v _ w _ => v = vec /\ 0 < w
  end.

Definition well_prog (n : nat) (T : nat -> bool * Z) (P : prog) : Prop :=
  forall p i, In i (P p) -> well n T (fst (T p)) i /\ width i = snd (T p).

(** ** What the analyses claim *)

Definition lanes_equal (r : env) (n : nat) (e : exp) : Prop :=
  forall i j, (i < n)%nat -> (j < n)%nat -> eval r e i = eval r e j.

(** Each lane is [stride] further than the one before, in the arithmetic of
    the element type. *)
Definition lanes_linear (r : env) (n : nat) (stride : Z) (e : exp) : Prop :=
  forall i, (i < n)%nat ->
    eval r e i = wrapu (width e) (eval r e 0 + Z.of_nat i * stride).

(** ** Conditions *)

(** [Q] of every part of [e] that the analyses look at. *)
Fixpoint every (Q : exp -> Prop) (inner : bool) (e : exp) : Prop :=
  (inner = false -> Q e) /\
  match e with
  | Bin _ _ _ a b => every Q false a /\ every Q false b
  | Cast _ _ a => every Q false a
  | Insert a s _ => every Q true a /\ every Q false s
  | Shuf (Insert (Undef _) s O) _ => every Q false s
  | _ => True
  end.

Definition everywhere (P : prog) (Q : exp -> Prop) (e : exp) : Prop :=
  every Q false e /\ (forall p i, In i (P p) -> every Q false i).

Fixpoint castless (e : exp) : Prop :=
  match e with
  | Cast _ _ _ => False
  | Bin _ _ _ a b => castless a /\ castless b
  | _ => True
  end.

(** No cast of something that contains another cast. *)
Fixpoint flat (e : exp) : Prop :=
  match e with
  | Cast _ _ a => castless a
  | Bin _ _ _ a b => flat a /\ flat b
  | _ => True
  end.

(** The chain of insertelements [e] sets lane [j]. *)
Fixpoint covers (e : exp) (j : nat) : Prop :=
  match e with
  | Insert a _ i => j = i \/ covers a j
  | CVec _ _ => True
  | _ => False
  end.

Fixpoint flat_chain (e : exp) : Prop :=
  match e with
  | Insert a s _ => flat s /\ flat_chain a
  | _ => True
  end.

(** Constants added to an index that is shifted or masked: small, and such that
    the largest remainder modulo a power of two is not itself a power of two
    (if the quotients agree at all). *)
Definition add_ok (l : list Z) : Prop :=
  Forall (fun x => 0 <= x < 2 ^ 31) l /\
  forall k, 0 <= k ->
    (forall x y, In x l -> In y l -> x / 2 ^ k = y / 2 ^ k) ->
    (forall x y, In x l -> In y l -> x = y) \/
    (forall x, In x l -> (forall y, In y l -> y mod 2 ^ k <= x mod 2 ^ k) ->
       forall j, 0 <= j -> x mod 2 ^ k <> 2 ^ j).

Definition tame (n : nat) (e : exp) : Prop :=
  match e with
  | Data _ l => Forall (fun x => x < 2 ^ 63) l
  | Bin o _ w a b =>
      (is_add o = true -> match b with Data _ l => add_ok l | _ => True end) /\
      (o = AShr \/ o = LShr ->
         match b with Data _ l => Forall (fun k => k < w) l | _ => True end)
  | Insert _ _ _ => (forall j, (j < n)%nat -> covers e j) /\ flat_chain e
  | _ => True
  end.

(** LLVM's word that an [or] adds. *)
Definition ors_ok (r : env) (n : nat) (e : exp) : Prop :=
  match e with
  | Bin (Or true) _ _ a b =>
      defined r e -> forall i, (i < n)%nat -> Z.land (eval r a i) (eval r b i) = 0
  | _ => True
  end.

(** Neighbouring lanes of a value that is extended to a wider type are less
    than half the range of the narrow type apart; values that go through other
    casts are the same in all lanes. *)
Definition no_jump (r : env) (n : nat) (e : exp) : Prop :=
  match e with
  | Cast c w a =>
      8 <= width a /\
      (defined r e ->
       match c with
       | Trunc => True
       | SExt => forall i, (S i < n)%nat ->
           Z.abs (wraps (width a) (eval r a (S i)) - wraps (width a) (eval r a i))
             < 2 ^ (width a - 1)
       | ZExt => forall i, (S i < n)%nat ->
           Z.abs (eval r a (S i) - eval r a i) < 2 ^ (width a - 1)
       | OtherCast _ => lanes_equal r n a
       end)
  | _ => True
  end.

(** Not a PHI node of vectors. *)
Definition no_phi (e : exp) : Prop :=
  match e with Phi true _ _ => False | _ => True end.

(** Constants are as [tame] asks, and every [or] that LLVM calls an addition
    adds, in [e] and in the incoming values of all PHI nodes, throughout the run. *)
Definition sane (n : nat) (P : prog) (tr : nat -> env) (e : exp) : Prop :=
  forall t, everywhere P (fun x => tame n x /\ ors_ok (tr t) n x) e.

Definition smooth (n : nat) (P : prog) (tr : nat -> env) (e : exp) : Prop :=
  forall t, everywhere P (no_jump (tr t) n) e.

Definition no_phis (P : prog) (e : exp) : Prop := everywhere P no_phi e.

(** ** Room for an offset computation *)

(** How a value is used further up: modulo its range only, sign-extended, or
    zero-extended. *)
Inductive mode := Mod | Sgn | Uns.

Definition rd (m : mode) (w x : Z) : Z := match m with Sgn => wraps w x | _ => x end.

(** The sum of the absolute values of all the terms the expression adds up once
    products are multiplied out, in one lane. *)
Fixpoint mag (r : env) (lane : nat) (m : mode) (e : exp) : Z :=
  let opaque := Z.abs (rd m (width e) (eval r e lane)) in
  match e with
  | Bin o _ w a b =>
      if is_add o then mag r lane m a + mag r lane m b
      else match o with
      | Mul => mag r lane m a * mag r lane m b
      | Shl => mag r lane m a * 2 ^ eval r b lane
      | _ => opaque
      end
  | Cast Trunc _ a => mag r lane m a
  | Cast SExt _ a => mag r lane Sgn a
  | Cast ZExt _ a => mag r lane Uns a
  | _ => opaque
  end.

Definition fits (m : mode) (w x : Z) : Prop :=
  match m with Mod => True | Sgn => x < 2 ^ (w - 1) | Uns => x < 2 ^ w end.

(** Values the split leaves alone. *)
Definition whole (e : exp) : Prop :=
  match e with
  | Cast _ _ _ => False
  | Bin o _ _ _ _ => is_add o = false /\ o <> Mul /\ o <> Shl
  | _ => True
  end.

Definition small (w x : Z) : Prop := - 2 ^ 31 <= wraps w x < 2 ^ 31.

(** Every value that is extended to a wider type is so small that none of its
    terms, nor any sum of them, leaves the range of its type; integer constants
    fit in 32 bits; an [or] that counts as an addition adds. *)
Fixpoint room (r : env) (lane : nat) (m : mode) (e : exp) : Prop :=
  fits m (width e) (mag r lane m e) /\
  match e with
  | Data w _ =>
      8 <= w /\ small w (eval r e lane) /\ (m = Uns -> eval r e lane < 2 ^ (w - 1))
  | CVec w l =>
      match nth lane l EUndef with
      | EPtrAdd _ d | EAddPtr d _ => small w d
      | _ => True
      end
  | Bin o _ w a b =>
      (o = Or true -> Z.land (eval r a lane) (eval r b lane) = 0) /\
      (if is_add o then room r lane m a /\ room r lane m b
       else match o with
       | Mul => room r lane m a /\ room r lane m b
       | Shl => room r lane m a /\ room r lane Mod b
       | _ => True
       end)
  | Cast Trunc _ a => room r lane m a
  | Cast SExt _ a => m <> Uns /\ room r lane Sgn a
  | Cast ZExt _ a => room r lane Uns a
  | Cast (OtherCast _) _ a => whole a
  | _ => True
  end.

(** An [or] whose first element is broadcast adds, too. *)
Fixpoint splats_add (r : env) (e : exp) : Prop :=
  match e with
  | Bin _ _ _ a b => splats_add r a /\ splats_add r b
  | Shuf (Bin (Or true) _ _ a b) _ => Z.land (eval r a 0%nat) (eval r b 0%nat) = 0
  | _ => True
  end.

(** ** Memory *)

(** What one lane after the other finds in memory ([None]: the lane is off;
    [Some None]: the access faults). *)
Definition found (n : nat) (mem : Z -> option Z) (mask : nat -> bool) (addr : nat -> Z)
  : list (option (option Z)) :=
  map (fun i => if mask i then Some (mem (addr i)) else None) (seq 0 n).

(** The addresses an operation touches. *)
Definition touched (n : nat) (mask : nat -> bool) (addr : nat -> Z) : list Z :=
  map addr (filter mask (seq 0 n)).

(** Memory after the lanes that are on have stored, one after the other. *)
Definition stored (n : nat) (mem : Z -> option Z) (mask : nat -> bool) (addr : nat -> Z)
  (val : nat -> Z) : Z -> option Z :=
  fold_left (fun m i => if mask i
                        then fun a => if a =? addr i then Some (val i) else m a
                        else m) (seq 0 n) mem.

(** The addresses of the loads and stores that replace a gather or scatter:
    one element for all lanes, consecutive elements of [step] bytes, the same
    with the lanes reversed. *)
Definition start (r : env) (k : call) (off : exp) (lane : nat) : Z :=
  eval r (c_base k) lane + wraps (width off) (eval r off lane).

Definition one_addr (r : env) (k : call) (off : exp) (i : nat) : Z :=
  wrapu 64 (start r k off 0).

Definition vector_addr (r : env) (k : call) (off : exp) (step : Z) (i : nat) : Z :=
  wrapu 64 (start r k off 0 + Z.of_nat i * step).

Definition reversed_addr (n : nat) (r : env) (k : call) (off : exp) (step : Z) (i : nat) : Z :=
  wrapu 64 (start r k off (n - 1) + Z.of_nat (n - 1 - i) * step).

(** The whole offset of a lane, with offsets of [w] bits. *)
Definition offset (r : env) (k : call) (w : Z) (i : nat) : Z :=
  wraps w (eval r (c_var k) i) * c_scale k + wraps w (eval r (c_const k) i).

(** A call with offsets of 64 bits, or of 32 bits such that no whole offset
    leaves the range of an int and those of neighbouring lanes are less than
    2^31 apart. *)
Record proper (n : nat) (T : nat -> bool * Z) (r : env) (k : call) (factored : bool) (w : Z) : Prop := {
  p_base : well n T false (c_base k);
  p_var : well n T true (c_var k);
  p_wvar : width (c_var k) = w;
  p_const : well n T true (c_const k);
  p_wconst : width (c_const k) = w;
  p_scale : In (c_scale k) [1; 2; 4; 8];
  p_zero : factored = false -> forall i, (i < n)%nat -> eval r (c_const k) i = 0;
  p_range : w = 64 \/ w = 32 /\ forall i, (i < n)%nat -> - 2 ^ 31 <= offset r k w i < 2 ^ 31;
  p_gap : w = 32 -> forall i, (S i < n)%nat -> Z.abs (offset r k w (S i) - offset r k w i) < 2 ^ 31
}.
