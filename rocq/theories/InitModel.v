(** Initializers of variables: InitSymbol (src/expr.cpp 739-1016), the constants of initializer lists
    (lGetExprListConstant, src/expr.cpp 4656-4810), and array dimensions left to the initializer
    (ArrayType::SizeUnsizedArrays, src/type.cpp 1620-1677). *)
From Coq Require Import List Bool Arith.
Import ListNotations.
From Verif Require Import CastModel.

(** The types of variables: basic types, short vectors, arrays, structures; true: varying.  An array with 0
    elements has an unspecified dimension.  Enumerations, pointers, references and soa types are left out. *)
Inductive ty := TB (vy : bool) (b : basic) | TV (vy : bool) (n : nat) (b : basic) | TA (n : nat) (t : ty) | TS (ts : list ty).

Section Init.
(** Values of basic types, zero, and conversion (C63); gang size; cells a uniform vector has in memory
    (VectorType::getVectorMemoryCount, src/type.cpp 1835-1857). *)
Variables (V : Type) (zero : basic -> V) (conv : basic -> basic -> V -> V) (W : nat) (mem_count : nat -> nat).

(** Values: uniform, varying, of an aggregate. *)
Inductive val := VB (v : V) | VL (l : list V) | VN (l : list val).
(** An expression: what tells it apart, its type, whether its type is an AtomicType (not an enumeration, pointer, ...),
    its value if the compiler knows it (ConstExpr). *)
Record expr := { e_id : nat; e_ty : ty; e_atomic : bool; e_const : option val }.
Inductive init := IExpr (e : expr) | IList (l : list init).
(** Memory of a variable; None: undefined. *)
Inductive mem := MC (c : option V) | ML (l : list (option V)) | MA (l : list mem).

(** Code is emitted; an error is reported; a check in the compiler or in LLVM fails. *)
Inductive res (A : Type) := OK (a : A) | Err | Crash.
Arguments OK {A}. Arguments Err {A}. Arguments Crash {A}.

Fixpoint ty_eqb (a b : ty) {struct a} : bool :=
  match a, b with
  | TB v x, TB w y => Bool.eqb v w && basic_eqb x y
  | TV v n x, TV w k y => Bool.eqb v w && (n =? k) && basic_eqb x y
  | TA n x, TA k y => (n =? k) && ty_eqb x y
  | TS l, TS l' =>
      (fix go (l l' : list ty) := match l, l' with [], [] => true | x :: l, y :: l' => ty_eqb x y && go l l' | _, _ => false end) l l'
  | _, _ => false
  end.
(** The value of a basic type converted to another (C63). *)
Definition conv_basic (vy' vy : bool) (b' b : basic) (v : val) : res val :=
  match vy', vy, v with
  | false, false, VB x => OK (VB (conv b b' x))
  | true, false, VB x => OK (VL (repeat (conv b b' x) W))
  | true, true, VL l => OK (VL (map (conv b b') l))
  | _, _, _ => Err
  end.
Fixpoint all_ok {A} (l : list (res A)) : res (list A) :=
  match l with
  | [] => OK []
  | OK x :: r => match all_ok r with OK r => OK (x :: r) | Err => Err | Crash => Crash end
  | Err :: _ => Err
  | Crash :: _ => Crash
  end.
Definition res_map {A B} (f : A -> B) (r : res A) : res B := match r with OK x => OK (f x) | Err => Err | Crash => Crash end.
(** TypeConvertExpr and TypeCastExpr::GetValue for the conversions an initializer needs.  A structure is only converted to
    its own type; arrays are not initializers (src/stmt.cpp 349-351).  A value spread over a uniform vector of bool fails
    (C63). *)
Definition convert (t t' : ty) (v : val) : res val :=
  match t, t' with
  | TB vy b, TB vy' b' => conv_basic vy vy' b b' v
  | TV vy n b, TB vy' b' =>
      match conv_basic vy vy' b b' v with
      | OK x => if negb vy && basic_eqb b BBool then Crash else OK (VN (repeat x n))
      | r => r
      end
  | TV vy n b, TV vy' k b' =>
      match v with
      | VN l => if n =? k then res_map VN (all_ok (map (conv_basic vy vy' b b') l)) else Err
      | _ => Err
      end
  | TS _, TS _ => if ty_eqb t t' then OK v else Err
  | _, _ => Err
  end.
(** TypeConvertExpr reports an error for the types alone. *)
Definition convertible (t t' : ty) : bool :=
  match t, t' with
  | TB vy _, TB vy' _ => vy || negb vy'
  | TV vy _ _, TB vy' _ => vy || negb vy'
  | TV vy n _, TV vy' k _ => (vy || negb vy') && (n =? k)
  | TS _, TS _ => ty_eqb t t'
  | _, _ => false
  end.

(** The zero of a type: llvm::Constant::getNullValue. *)
Fixpoint zero_val (t : ty) : val :=
  match t with
  | TB false b => VB (zero b)
  | TB true b => VL (repeat (zero b) W)
  | TV false n b => VN (repeat (VB (zero b)) n)
  | TV true n b => VN (repeat (VL (repeat (zero b) W)) n)
  | TA n t => VN (repeat (zero_val t) n)
  | TS ts => VN (map zero_val ts)
  end.

Definition scalar (v : val) : option V := match v with VB x => Some x | _ => None end.
(** ctx->StoreInst(value, ptr, type), or the memcpy of the constant: a uniform vector is padded. *)
Fixpoint store (t : ty) (v : val) {struct t} : mem :=
  match t, v with
  | TB false _, VB x => MC (Some x)
  | TB true _, VL l => ML (map Some l)
  | TV false n _, VN l => ML (map scalar l ++ repeat None (mem_count n - length l))
  | TV true _ _, VN l => MA (map (fun v => match v with VL l => ML (map Some l) | _ => ML [] end) l)
  | TA _ t, VN l => MA (map (store t) l)
  | TS ts, VN l => MA ((fix go (ts : list ty) (l : list val) {struct ts} :=
                          match ts, l with t :: ts, v :: l => store t v :: go ts l | _, _ => [] end) ts l)
  | _, _ => MC None
  end.

(** The number of elements a list may initialize and their types (CollectionType::GetElementCount, GetElementType).
    None: a uniform basic type. *)
Definition element_types (t : ty) : option (list ty) :=
  match t with
  | TB false _ => None
  | TB true b => Some (repeat (TB false b) W)
  | TV vy n b => Some (repeat (TB vy b) n)
  | TA n t => Some (repeat t n)
  | TS ts => Some ts
  end.
Definition is_basic (t : ty) : bool := match t with TB _ _ => true | _ => false end.
Definition is_varying (t : ty) : bool := match t with TB vy _ => vy | TV vy _ _ => vy | _ => false end.
(** The elements of a varying value given one by one. *)
Fixpoint all_scalars (l : list val) : list V :=
  match l with [] => [] | VB x :: l => x :: all_scalars l | _ :: l => all_scalars l end.
Definition assemble (t : ty) (l : list val) : val := if is_basic t then VL (all_scalars l) else VN l.

(** lGetConstExprConstant (src/expr.cpp 6686-6830): only basic types; a varying constant for a uniform type is not
    expected. *)
Definition const_expr (t : ty) (e : expr) : res (option val) :=
  match e_const e, t, e_ty e with
  | None, _, _ => OK None
  | Some c, TB vy b, TB vy' b' =>
      if negb vy && vy' then Crash else match conv_basic vy vy' b b' c with OK v => OK (Some v) | _ => OK None end
  | Some _, _, _ => OK None
  end.
(** lGetExprListConstant.  The types of the constants LLVM is given are not modelled: the zero of a missing bool and the
    padding of a bool vector are of type i1, their neighbours of type i8. *)
Fixpoint const_init (t : ty) (i : init) {struct i} : res (option val) :=
  match i with
  | IExpr e => const_expr t e
  | IList l =>
      let elements :=
        (fix go (ts : list ty) (l : list init) {struct l} : res (option (list val)) :=
           match l, ts with
           | [], ts => OK (Some (map zero_val ts))
           | i :: l, t :: ts =>
               let ok := match i with IExpr e => convertible t (e_ty e) | IList _ => true end in
               if ok then
                 match const_init t i with
                 | OK (Some v) => match go ts l with OK (Some r) => OK (Some (v :: r)) | r => r end
                 | OK None => OK None
                 | Err => Err
                 | Crash => Crash
                 end
               else Err
           | _ :: _, [] => Err
           end) in
      let by_list :=
        match element_types t with
        | None => OK None
        | Some ts =>
            if length ts <? length l then Err
            else if is_basic t && (length l <? length ts) then Err
            else match elements ts l with OK (Some r) => OK (Some (assemble t r)) | OK None => OK None | Err => Err | Crash => Crash end
        end in
      match l with
      | [i] => if is_basic t then const_init t i else by_list
      | _ => by_list
      end
  end.

(** What an expression evaluates to at run time (values do not depend on the order of evaluation), and the expressions
    evaluated so far. *)
Variable value : nat -> val.
Definition eval (e : expr) (tr : list nat) : val * list nat :=
  match e_const e with Some c => (c, tr) | None => (value (e_id e), tr ++ [e_id e]) end.

(** ** Uniform vectors (src/expr.cpp 887-971) *)
(** ExprList::HasAtomicInitializerList (src/expr.cpp 4856-4879): a list in the list has no type. *)
Fixpoint atomic_list (l : list init) : res bool :=
  match l with
  | [] => OK true
  | IList _ :: _ => Crash
  | IExpr e :: l => if e_atomic e then atomic_list l else OK false
  end.
(** The order of AtomicType::BasicType (src/type.h 376-391), that of std::map. *)
Definition basics : list basic :=
  [BBool; BInt1; BInt8; BUInt8; BInt16; BUInt16; BInt32; BUInt32; BHalf; BFloat; BInt64; BUInt64; BDouble].
Definition basic_of (t : ty) : option (bool * basic) := match t with TB vy b => Some (vy, b) | _ => None end.
(** The expressions of one type, with their positions. *)
Fixpoint of_type (b : basic) (k : nat) (l : list init) : list (nat * expr) :=
  match l with
  | IExpr e :: l =>
      (match basic_of (e_ty e) with Some (_, b') => if basic_eqb b b' then [(k, e)] else [] | None => [] end) ++ of_type b (S k) l
  | IList _ :: l => of_type b (S k) l
  | [] => []
  end.
Fixpoint put {A} (k : nat) (x : A) (l : list A) : list A :=
  match l, k with [], _ => [] | _ :: l, O => x :: l | y :: l, S k => y :: put k x l end.
Definition uniform_e (e : expr) : bool := negb (is_varying (e_ty e)).
(** Insert the values of the group into a vector. *)
Fixpoint insert_all (g : list (nat * expr)) (acc : list (option V)) (tr : list nat) : list (option V) * list nat :=
  match g with
  | [] => (acc, tr)
  | (k, e) :: g => let (v, tr) := eval e tr in insert_all g (put k (scalar v) acc) tr
  end.
(** ShuffleInst(per type, result so far, linearVector): the positions of the group from the first. *)
Fixpoint merge (k : nat) (ps : list nat) (a r : list (option V)) : list (option V) :=
  match a, r with
  | x :: a, y :: r => (if existsb (Nat.eqb k) ps then x else y) :: merge (S k) ps a r
  | _, _ => []
  end.
(** One type.  inl: the result; inr true: nothing is emitted and the function returns; inr false: invalid instruction. *)
Definition one_type (b : basic) (n_types : nat) (bt : basic) (g : list (nat * expr)) (acc : list (option V)) (tr : list nat)
  : (list (option V) * list nat) + bool :=
  match g with
  | [] => inl (acc, tr)
  | [(k, e)] =>
      let (v, tr1) := eval e tr in
      (* conv = expr0->GetValue(ctx); if the types differ, expr0->GetValue(ctx) again *)
      let (v, tr2) := if basic_eqb b bt then (v, tr1) else eval e tr1 in
      if uniform_e e then inl (put k (option_map (conv bt b) (scalar v)) acc, tr2) else inr false
  | (_, e0) :: _ =>
      if forallb (fun p => uniform_e (snd p)) g then
        let (vec, tr1) := insert_all g (repeat None (length acc)) tr in
        let vec := map (option_map (conv bt b)) vec in
        inl (if 1 <? n_types then merge 0 (map fst g) vec acc else vec, tr1)
      else if forallb (fun p => negb (uniform_e (snd p))) g then inr true else inr false
  end.
Fixpoint all_types (b : basic) (n_types : nat) (gs : list (basic * list (nat * expr))) (acc : list (option V)) (tr : list nat)
  : (list (option V) * list nat) + bool :=
  match gs with
  | [] => inl (acc, tr)
  | (bt, g) :: gs =>
      match one_type b n_types bt g acc tr with inl (acc, tr) => all_types b n_types gs acc tr | r => r end
  end.
Definition groups (l : list init) : list (basic * list (nat * expr)) :=
  filter (fun p => negb (length (snd p) =? 0)) (map (fun b => (b, of_type b 0 l)) basics).
(** ctx->StoreInst(initListVector, ptrInfo): without the type, so that a vector of bool is stored as a vector of i1, eight
    elements to the byte, and the bytes of its elements are not what they should be: undefined here. *)
Definition vector_init (n : nat) (b : basic) (l : list init) (tr : list nat) : res (mem * list nat) :=
  let gs := groups l in
  match all_types b (length gs) gs (repeat None (mem_count n)) tr with
  | inl (acc, tr) => OK (ML (if basic_eqb b BBool then repeat None (length acc) else acc), tr)
  | inr true => OK (ML (repeat None (mem_count n)), tr)
  | inr false => Crash
  end.

(** The memory of the elements together: lanes of a varying variable and elements of a uniform vector are cells. *)
Fixpoint all_cells (l : list mem) : list (option V) :=
  match l with [] => [] | MC c :: l => c :: all_cells l | _ :: l => all_cells l end.
Definition assemble_mem (t : ty) (l : list mem) : mem :=
  match t with
  | TB _ _ => ML (all_cells l)
  | TV false n _ => ML (all_cells l ++ repeat None (mem_count n - length l))
  | _ => MA l
  end.

(** InitSymbol (src/expr.cpp 739-1016), with an initializer. *)
Fixpoint init_symbol (t : ty) (i : init) (tr : list nat) {struct i} : res (mem * list nat) :=
  match const_init t i with
  | Err => Err
  | Crash => Crash
  | OK (Some v) => OK (store t v, tr)
  | OK None =>
      match i with
      | IExpr e =>
          let (v, tr) := eval e tr in
          if convertible t (e_ty e) then match convert t (e_ty e) v with OK v => OK (store t v, tr) | Err => Err | Crash => Crash end
          else Err
      | IList l =>
          let elements :=
            (fix go (ts : list ty) (l : list init) (tr : list nat) {struct l} : res (list mem * list nat) :=
               match l, ts with
               | [], ts => OK (map (fun t => store t (zero_val t)) ts, tr)
               | i :: l, t :: ts =>
                   match init_symbol t i tr with
                   | OK (m, tr) => match go ts l tr with OK (r, tr) => OK (m :: r, tr) | Err => Err | Crash => Crash end
                   | Err => Err
                   | Crash => Crash
                   end
               | _ :: _, [] => Err
               end) in
          let loop ts := match elements ts l tr with OK (ms, tr) => OK (assemble_mem t ms, tr) | Err => Err | Crash => Crash end in
          let by_list :=
            match element_types t with
            | None => Err
            | Some ts =>
                if length ts <? length l then Err
                else if is_basic t && (length l <? length ts) then Err
                else match t with
                     | TV false n b =>
                         if length l =? 0 then loop ts
                         else match atomic_list l with
                              | OK true => vector_init n b l tr
                              | OK false => loop ts
                              | Err => Err
                              | Crash => Crash
                              end
                     | _ => loop ts
                     end
            end in
          match l with
          | [i] => if is_basic t then init_symbol t i tr else by_list
          | _ => by_list
          end
      end
  end.

(** ArrayType::SizeUnsizedArrays (src/type.cpp 1620-1677); None: an error is reported. *)
Fixpoint size_unsized (t : ty) (i : init) {struct i} : option ty :=
  match t, i with
  | TA n t', IList (i0 :: l) =>
      let n := if n =? 0 then S (length l) else n in
      match i0 with
      | IExpr _ => Some (TA n t')
      | IList next =>
          let same := forallb (fun i => match i with IList l => length l =? length next | IExpr _ => false end) l in
          match t' with
          | TA 0 _ => if same then option_map (TA n) (size_unsized t' i0) else None
          | _ => option_map (TA n) (size_unsized t' i0)
          end
      end
  | _, _ => Some t
  end.
End Init.
Arguments VB {V}. Arguments VL {V}. Arguments VN {V}. Arguments IExpr {V}. Arguments IList {V}.
Arguments MC {V}. Arguments ML {V}. Arguments MA {V}. Arguments OK {A}. Arguments Err {A}. Arguments Crash {A}.
Arguments e_id {V}. Arguments e_ty {V}. Arguments e_atomic {V}. Arguments e_const {V}. Arguments Build_expr {V}.
