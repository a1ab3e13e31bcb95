(** The meaning of an expression for one program instance: that of C. *)
From Coq Require Import ZArith List Bool.
From Verif Require Import ExprModel.
Import ListNotations.
Local Open Scope Z_scope.

(** An instance's variables and the calls it has made. *)
Record lstate := LS { l_env : nat -> Z; l_calls : list (nat * Z) }.

Definition wrap32 (x : Z) : Z := (x + 2 ^ 31) mod 2 ^ 32 - 2 ^ 31.

(* [nsw]: signed overflow is undefined; otherwise it wraps *)
Definition c_add (nsw : bool) (a b : Z) : option Z :=
  if nsw && ((a + b <? - 2 ^ 31) || (2 ^ 31 <=? a + b)) then None else Some (wrap32 (a + b)).
Definition c_div (a b : Z) : option Z :=
  if (b =? 0) || ((a =? - 2 ^ 31) && (b =? -1)) then None else Some (Z.quot a b).
Definition c_index (array : list Z) (i : Z) : option Z :=
  if i <? 0 then None else nth_error array (Z.to_nat i).
Definition c_set (env : nat -> Z) (x : nat) (v : Z) : nat -> Z := fun y => if Nat.eqb y x then v else env y.
Definition c_true (z : Z) : bool := negb (z =? 0).
Definition c_bool (b : bool) : Z := if b then 1 else 0.

(** && and || evaluate the right operand, ? : one of the arms, only when needed. *)
Fixpoint ceval (nsw : bool) (uvar : nat -> Z) (array : list Z) (fn : nat -> Z -> Z) (e : expr) (s : lstate)
  : option (Z * lstate) :=
  let ev := ceval nsw uvar array fn in
  match e with
  | Num z => Some (z, s)
  | UVar u => Some (uvar u, s)
  | Var x => Some (l_env s x, s)
  | Add a b =>
      match ev a s with
      | None => None
      | Some (x, s) => match ev b s with
                       | None => None
                       | Some (y, s) => match c_add nsw x y with None => None | Some z => Some (z, s) end
                       end
      end
  | Lt a b =>
      match ev a s with
      | None => None
      | Some (x, s) => match ev b s with None => None | Some (y, s) => Some (c_bool (x <? y), s) end
      end
  | Incr x =>
      match c_add nsw (l_env s x) 1 with
      | None => None
      | Some z => Some (l_env s x, LS (c_set (l_env s) x z) (l_calls s))
      end
  | Assign x e =>
      match ev e s with None => None | Some (v, s) => Some (v, LS (c_set (l_env s) x v) (l_calls s)) end
  | DivAssign x e =>
      match ev e s with
      | None => None
      | Some (v, s) => match c_div (l_env s x) v with
                       | None => None
                       | Some q => Some (q, LS (c_set (l_env s) x q) (l_calls s))
                       end
      end
  | Div a b =>
      match ev a s with
      | None => None
      | Some (x, s) => match ev b s with
                       | None => None
                       | Some (y, s) => match c_div x y with None => None | Some q => Some (q, s) end
                       end
      end
  | Load i =>
      match ev i s with
      | None => None
      | Some (i, s) => match c_index array i with None => None | Some x => Some (x, s) end
      end
  | Call f e =>
      match ev e s with None => None | Some (v, s) => Some (fn f v, LS (l_env s) (l_calls s ++ [(f, v)])) end
  | And a b =>
      match ev a s with
      | None => None
      | Some (x, s) => if c_true x
                       then match ev b s with None => None | Some (y, s) => Some (c_bool (c_true y), s) end
                       else Some (0, s)
      end
  | Or a b =>
      match ev a s with
      | None => None
      | Some (x, s) => if c_true x then Some (1, s)
                       else match ev b s with None => None | Some (y, s) => Some (c_bool (c_true y), s) end
      end
  | Sel t a b =>
      match ev t s with
      | None => None
      | Some (x, s) => if c_true x then ev a s else ev b s
      end
  end.

(** Which expressions assign to variables. *)
Fixpoint assigns (e : expr) : bool :=
  match e with
  | Num _ | UVar _ | Var _ => false
  | Incr _ | Assign _ _ | DivAssign _ _ => true
  | Add a b | Lt a b | Div a b | And a b | Or a b => assigns a || assigns b
  | Load e | Call _ e => assigns e
  | Sel t a b => assigns t || assigns a || assigns b
  end.

(** No right operand of && or || and no arm of ? : assigns to a variable. *)
Fixpoint plain_operands (e : expr) : bool :=
  match e with
  | Num _ | UVar _ | Var _ | Incr _ => true
  | Assign _ e | DivAssign _ e | Load e | Call _ e => plain_operands e
  | Add a b | Lt a b | Div a b => plain_operands a && plain_operands b
  | And a b | Or a b => plain_operands a && plain_operands b && negb (assigns b)
  | Sel t a b => plain_operands t && plain_operands a && plain_operands b && negb (assigns a) && negb (assigns b)
  end.

(** No + and no ++: nothing in the expression can overflow. *)
Fixpoint adds (e : expr) : bool :=
  match e with
  | Num _ | UVar _ | Var _ => false
  | Add _ _ | Incr _ => true
  | Lt a b | Div a b | And a b | Or a b => adds a || adds b
  | Assign _ e | DivAssign _ e | Load e | Call _ e => adds e
  | Sel t a b => adds t || adds a || adds b
  end.

(** The lane has the variables and has made the calls of the instance. *)
Definition lane_is (s : gstate) (l : nat) (q : lstate) : Prop :=
  (forall x, g_env s l x = Some (l_env q x)) /\ g_calls s l = l_calls q.

(** [e], evaluated by the gang from [s] with mask [mask], gives each running lane the value, variables
    and calls that C gives the instance ([r]); it makes no call for the other lanes and leaves their
    variables of enclosing scopes alone. *)
Definition evaluates_as_instances (cx : ctx) (mask : nat -> bool) (e : expr) (s : gstate) (r : nat -> Z * lstate) : Prop :=
  exists v s', geval cx mask e s = Some (v, s') /\
    forall l, (l < cx_width cx)%nat ->
      (mask l = true -> at_lane v l = Some (fst (r l)) /\ lane_is s' l (snd (r l))) /\
      (mask l = false -> (forall x, cx_outer cx x = true -> g_env s' l x = g_env s l x) /\ g_calls s' l = g_calls s l).
