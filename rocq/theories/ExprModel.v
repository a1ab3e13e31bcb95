(** Evaluation of varying expressions: the logical operators, the selection operator and the
    expressions with side effects below them, as src/expr.cpp emits them.

    A varying value has one entry per lane; [None] in an entry is an LLVM poison value.  The outer
    [None] is undefined behaviour: a branch on poison, a division or load outside its domain, a call
    of a function that is not declared safe with no lane on.

    Simplifications: one integer type (int32) and one implicit conversion to bool; one array in
    memory, read only; the function's own mask is all on, so the internal mask is the full mask;
    short vectors (int<3>) are left out. *)
From Coq Require Import ZArith List Bool.
From Verif Require Import Bits LanesModel NumModel.
Import ListNotations.
Local Open Scope Z_scope.

Inductive expr :=
| Num (z : Z)                   (* a constant *)
| UVar (u : nat)                (* a uniform variable *)
| Var (x : nat)                 (* a varying variable *)
| Add (a b : expr)
| Lt (a b : expr)
| Incr (x : nat)                (* x++ *)
| Assign (x : nat) (e : expr)   (* x = e *)
| DivAssign (x : nat) (e : expr) (* x /= e *)
| Div (a b : expr)
| Load (i : expr)               (* array[i] *)
| Call (f : nat) (e : expr)     (* a function not declared safe *)
| And (a b : expr)
| Or (a b : expr)
| Sel (t a b : expr).

(* What the program is evaluated in. *)
Record ctx := Ctx {
  cx_width : nat;
  cx_nsw : bool;                (* signed arithmetic is emitted with nsw: not --wrap-signed-int *)
  cx_xe : bool;
  cx_uvar : nat -> Z;
  cx_array : list Z;            (* the array, of constant size *)
  cx_fn : nat -> Z -> Z;        (* results of the called functions *)
  cx_outer : nat -> bool;       (* declared at a smaller varying control flow depth *)
  cx_junk : nat -> Z            (* contents of registers and memory no lane has written *)
}.

(* The type of an expression is uniform: src/expr.cpp GetType of each class; assignments are to
   varying variables. *)
Fixpoint uni (e : expr) : bool :=
  match e with
  | Num _ | UVar _ => true
  | Var _ | Incr _ | Assign _ _ | DivAssign _ _ => false
  | Add a b | Lt a b | Div a b | And a b | Or a b => uni a && uni b
  | Load i => uni i
  | Call _ e => uni e
  | Sel t a b => uni t && uni a && uni b
  end.

(* src/ispc.h:980-1012 and the EstimateCost methods of src/expr.cpp (UnaryExpr 1602, BinaryExpr 3170,
   AssignExpr 3655, SelectExpr 4095, FunctionCallExpr 4563, IndexExpr 5413, ConstExpr 6853,
   SymbolExpr 9146), summed over the nodes by src/ast.cpp:432-455.  Implicit conversions cost
   nothing here. *)
Definition is_num (e : expr) : bool := match e with Num _ => true | _ => false end.
Fixpoint cost (e : expr) : Z :=
  match e with
  | Num _ | UVar _ | Var _ => 0
  | Add a b | Lt a b | And a b | Or a b => (if is_num a && is_num b then 0 else 1) + cost a + cost b
  | Div a b => (if is_num a && is_num b then 0 else 4) + cost a + cost b
  | Incr _ => 1
  | Assign _ e => 1 + cost e
  | DivAssign _ e => 1 + 4 + cost e
  | Load i => (if uni i then 2 else 8) + cost i
  | Call _ e => 4 + cost e
  | Sel t a b => 4 + cost t + cost a + cost b
  end.

(* src/ast.cpp:460-606 lCheckAllOffSafety, 608-612 *)
Fixpoint safe_all_off (n : nat) (e : expr) : bool :=
  match e with
  | Num _ | UVar _ | Var _ | Incr _ => true
  | Add a b | Lt a b | And a b | Or a b => safe_all_off n a && safe_all_off n b
  | Assign _ e => safe_all_off n e
  | DivAssign _ e => safe_all_off n e
  | Div _ _ => false
  | Load (Num i) => (0 <=? i) && (i <? Z.of_nat n)
  | Load _ => false
  | Call _ _ => false
  | Sel t a b => safe_all_off n t && safe_all_off n a && safe_all_off n b
  end.

(* src/expr.cpp:2010-2012, 3825-3828: PREDICATE_SAFE_IF_STATEMENT_COST,
   PREDICATE_SAFE_SHORT_CIRC_XE_STATEMENT_COST *)
Definition short_circuit (cx : ctx) (e : expr) : bool :=
  ((if cx_xe cx then 10 else 6) <? cost e) || negb (safe_all_off (length (cx_array cx)) e).

(** ** Values *)

Inductive value := U (z : option Z) | V (g : gang (option Z)).
Definition at_lane (v : value) (l : nat) : option Z := match v with U z => z | V g => g l end.
(* conversion to the type of the whole expression *)
Definition coerce (u : bool) (v : value) : value := if u then v else V (at_lane v).

Definition lift2 (f : Z -> Z -> option Z) (x y : option Z) : option Z :=
  match x, y with Some a, Some b => f a b | _, _ => None end.
Definition bin (f : Z -> Z -> option Z) (a b : value) : value :=
  match a, b with
  | U x, U y => U (lift2 f x y)
  | _, _ => V (fun l => lift2 f (at_lane a l) (at_lane b l))
  end.

(* src/ctx.cpp:1806-1811: add with or without nsw *)
Definition add32 (nsw : bool) (a b : Z) : option Z :=
  let s := a + b in
  if nsw && negb ((- 2 ^ 31 <=? s) && (s <? 2 ^ 31)) then None else Some (wraps 32 s).
Definition truth (z : Z) : bool := negb (z =? 0).
Definition lt32 (a b : Z) : option Z := Some (b2z (a <? b)).
Definition and1 (a b : Z) : option Z := Some (b2z (truth a && truth b)).
Definition or1 (a b : Z) : option Z := Some (b2z (truth a || truth b)).
(* implicit conversion of the operands of && and || to bool *)
Definition bool1 (x : option Z) : option Z := match x with Some z => Some (b2z (truth z)) | None => None end.
Definition as_bool (v : value) : value := match v with U z => U (bool1 z) | V g => V (fun l => bool1 (g l)) end.

(** ** State: the varying variables, and per lane the calls made so far *)

Record gstate := GS { g_env : gang (nat -> option Z); g_calls : gang (list (nat * Z)) }.

Definition env_set (env : nat -> option Z) (x : nat) (v : option Z) : nat -> option Z :=
  fun y => if Nat.eqb y x then v else env y.

(* src/expr.cpp:1182-1200 lStoreAssignResult: a variable declared at the same varying control flow
   depth is stored with the mask all on *)
Definition store (cx : ctx) (mask : gang bool) (x : nat) (g : gang (option Z)) (s : gstate) : gstate :=
  GS (fun l => if mask l || negb (cx_outer cx x) then env_set (g_env s l) x (g l) else g_env s l) (g_calls s).

Definition on (W : nat) (mask : gang bool) : bool := existsb mask (lanes W).

(* the lanes where a value, which must hold no poison, is true (or false) *)
Definition defined_all (W : nat) (v : value) : bool :=
  forallb (fun l => match at_lane v l with Some _ => true | None => false end) (lanes W).
Definition holds (v : value) (l : nat) : bool := match at_lane v l with Some z => truth z | None => false end.

(* Masked division as C25 describes VectorIntDivision (src/ctx.cpp:1731-1783): undefined with no lane
   on, or when a lane that is on is undefined or has poison.  A uniform division is one sdiv. *)
Definition div1 (x y : option Z) : option Z :=
  match x, y with Some a, Some b => div_scalar 32 SDiv a b | _, _ => None end.
Definition gdiv (cx : ctx) (mask : gang bool) (a b : value) : option value :=
  match a, b with
  | U x, U y => match div1 x y with Some q => Some (U (Some q)) | None => None end
  | _, _ =>
      if on (cx_width cx) mask &&
         forallb (fun l => implb (mask l) (match div1 (at_lane a l) (at_lane b l) with Some _ => true | None => false end))
           (lanes (cx_width cx))
      then Some (V (fun l => if mask l then div1 (at_lane a l) (at_lane b l) else Some (cx_junk cx l)))
      else None
  end.

(* array[i]: a scalar load, or a gather of the lanes that are on *)
Definition load1 (cx : ctx) (i : option Z) : option Z :=
  match i with
  | Some i => if 0 <=? i then nth_error (cx_array cx) (Z.to_nat i) else None
  | None => None
  end.
Definition gload (cx : ctx) (mask : gang bool) (i : value) : option value :=
  match i with
  | U z => match load1 cx z with Some x => Some (U (Some x)) | None => None end
  | V g =>
      if forallb (fun l => implb (mask l) (match load1 cx (g l) with Some _ => true | None => false end))
           (lanes (cx_width cx))
      then Some (V (fun l => if mask l then load1 cx (g l) else Some (cx_junk cx l)))
      else None
  end.

(* a call: undefined (for the caller's intent) with no lane on *)
Definition gcall (cx : ctx) (mask : gang bool) (f : nat) (a : value) (s : gstate) : option (value * gstate) :=
  if on (cx_width cx) mask &&
     forallb (fun l => implb (mask l) (match at_lane a l with Some _ => true | None => false end)) (lanes (cx_width cx))
  then
    let r := match a with
             | U z => U (match z with Some z => Some (cx_fn cx f z) | None => None end)
             | V g => V (fun l => if mask l then match g l with Some z => Some (cx_fn cx f z) | None => None end
                                  else Some (cx_junk cx l))
             end in
    Some (r, GS (g_env s)
               (fun l => if mask l
                         then g_calls s l ++ [(f, match at_lane a l with Some z => z | None => 0 end)]
                         else g_calls s l))
  else None.

(** ** Evaluation under a mask *)

Fixpoint geval (cx : ctx) (mask : gang bool) (e : expr) (s : gstate) : option (value * gstate) :=
  let W := cx_width cx in
  match e with
  | Num z => Some (U (Some z), s)
  | UVar u => Some (U (Some (cx_uvar cx u)), s)
  | Var x => Some (V (fun l => g_env s l x), s)
  (* BinaryExpr::GetValue: the left operand first *)
  | Add a b =>
      match geval cx mask a s with
      | None => None
      | Some (va, s) =>
          match geval cx mask b s with
          | None => None
          | Some (vb, s) => Some (bin (add32 (cx_nsw cx)) va vb, s)
          end
      end
  | Lt a b =>
      match geval cx mask a s with
      | None => None
      | Some (va, s) =>
          match geval cx mask b s with
          | None => None
          | Some (vb, s) => Some (bin lt32 va vb, s)
          end
      end
  (* src/expr.cpp:1205-1271 *)
  | Incr x =>
      let old := fun l => g_env s l x in
      Some (V old, store cx mask x (fun l => lift2 (add32 (cx_nsw cx)) (old l) (Some 1)) s)
  (* 3436-3473 *)
  | Assign x e =>
      match geval cx mask e s with
      | None => None
      | Some (v, s) => Some (V (at_lane v), store cx mask x (at_lane v) s)
      end
  (* 3373-3431 *)
  | DivAssign x e =>
      match geval cx mask e s with
      | None => None
      | Some (v, s) =>
          match gdiv cx mask (V (fun l => g_env s l x)) v with
          | None => None
          | Some q => Some (q, store cx mask x (at_lane q) s)
          end
      end
  | Div a b =>
      match geval cx mask a s with
      | None => None
      | Some (va, s) =>
          match geval cx mask b s with
          | None => None
          | Some (vb, s) =>
              match gdiv cx mask va vb with None => None | Some q => Some (q, s) end
          end
      end
  | Load i =>
      match geval cx mask i s with
      | None => None
      | Some (v, s) => match gload cx mask v with None => None | Some r => Some (r, s) end
      end
  | Call f e =>
      match geval cx mask e s with
      | None => None
      | Some (v, s) => gcall cx mask f v s
      end
  (* 1998-2224 lEmitLogicalOp *)
  | And a b =>
      match geval cx mask a s with
      | None => None
      | Some (va0, s) =>
          let va := as_bool va0 in
          if negb (short_circuit cx b) then
            match geval cx mask b s with
            | None => None
            | Some (vb, s) => Some (bin and1 va (as_bool vb), s)
            end
          else
            match va with
            | U None => None                                       (* branch on poison *)
            | U (Some z) =>
                if truth z then
                  match geval cx mask b s with
                  | None => None
                  | Some (vb, s) => Some (coerce (uni b) (as_bool vb), s)
                  end
                else Some (coerce (uni b) (U (Some 0)), s)
            | V _ =>
                if negb (defined_all W va) then None               (* branch on poison *)
                else if forallb (fun l => implb (mask l) (negb (holds va l))) (lanes W) then Some (va, s)
                else
                  let mask1 := fun l => mask l && holds va l in
                  match geval cx mask1 b s with
                  | None => None
                  | Some (vb, s) =>
                      Some (V (fun l => lift2 and1 (lift2 and1 (at_lane va l) (Some (b2z (mask l))))
                                                   (lift2 and1 (at_lane (as_bool vb) l) (Some (b2z (mask1 l))))), s)
                  end
            end
      end
  | Or a b =>
      match geval cx mask a s with
      | None => None
      | Some (va0, s) =>
          let va := as_bool va0 in
          if negb (short_circuit cx b) then
            match geval cx mask b s with
            | None => None
            | Some (vb, s) => Some (bin or1 va (as_bool vb), s)
            end
          else
            match va with
            | U None => None
            | U (Some z) =>
                if truth z then Some (coerce (uni b) (U (Some 1)), s)
                else
                  match geval cx mask b s with
                  | None => None
                  | Some (vb, s) => Some (coerce (uni b) (as_bool vb), s)
                  end
            | V _ =>
                if negb (defined_all W va) then None
                else if forallb (fun l => implb (mask l) (holds va l)) (lanes W) then Some (va, s)
                else
                  let mask1 := fun l => mask l && negb (holds va l) in
                  match geval cx mask1 b s with
                  | None => None
                  | Some (vb, s) =>
                      Some (V (fun l => lift2 or1 (lift2 and1 (at_lane va l) (Some (b2z (mask l))))
                                                  (lift2 and1 (at_lane (as_bool vb) l) (Some (b2z (mask1 l))))), s)
                  end
            end
      end
  (* 3769-3859 SelectExpr::GetValue, 3722-3742 lEmitSelectExprCode, 3708-3720 lEmitVaryingSelect *)
  | Sel t a b =>
      match geval cx mask t s with
      | None => None
      | Some (U None, s) => None
      | Some (U (Some z), s) =>
          if truth z
          then match geval cx mask a s with None => None | Some (v, s) => Some (coerce (uni a && uni b) v, s) end
          else match geval cx mask b s with None => None | Some (v, s) => Some (coerce (uni a && uni b) v, s) end
      | Some (V g as vt, s) =>
          (* a poison lane in the test gives a poison lane in the masks below *)
          if negb (defined_all W vt) then None
          else
            let mask1 := fun l => mask l && holds vt l in
            let mask2 := fun l => mask l && negb (holds vt l) in
            match (if short_circuit cx a && negb (on W mask1) then Some (V (fun l => Some (cx_junk cx l)), s)
                   else geval cx mask1 a s) with
            | None => None
            | Some (v1, s) =>
                match (if short_circuit cx b && negb (on W mask2) then Some (V (fun l => Some (cx_junk cx l)), s)
                       else geval cx mask2 b s) with
                | None => None
                | Some (v2, s) => Some (V (fun l => if holds vt l then at_lane v1 l else at_lane v2 l), s)
                end
            end
      end
  end.
