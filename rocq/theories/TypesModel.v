(** Types: equality, symbol mangling, common types of operands, implicit conversions and overload
    resolution, as in src/type.cpp and src/expr.cpp.

    Simplifications: no unbound variability and no template-dependent types (both are gone before the
    code below runs); a struct is its name (as in lCheckTypeEquality); an enum is a number, its
    source position, whose name is looked up in a table; diagnostics are dropped. *)
From Coq Require Import ZArith NArith Bool Ascii String DecimalString List.
Import ListNotations.
Local Open Scope bool_scope.

(* type.h:376-393; the order of the constructors is that of the enumerators *)
Inductive basic :=
| TVoid | TBool | TInt1 | TInt8 | TUInt8 | TInt16 | TUInt16 | TInt32 | TUInt32
| TFloat16 | TFloat | TInt64 | TUInt64 | TDouble.

Definition basic_num (b : basic) : nat :=
  match b with
  | TVoid => 0 | TBool => 1 | TInt1 => 2 | TInt8 => 3 | TUInt8 => 4 | TInt16 => 5 | TUInt16 => 6
  | TInt32 => 7 | TUInt32 => 8 | TFloat16 => 9 | TFloat => 10 | TInt64 => 11 | TUInt64 => 12 | TDouble => 13
  end.
Definition basic_eqb (a b : basic) : bool := Nat.eqb (basic_num a) (basic_num b).

Inductive variability := Uniform | Varying | Soa (width : N).
Definition var_eqb (a b : variability) : bool :=
  match a, b with
  | Uniform, Uniform => true
  | Varying, Varying => true
  | Soa m, Soa n => N.eqb m n
  | _, _ => false
  end.

Definition name := list ascii.
Definition name_eqb (a b : name) : bool := if list_eq_dec ascii_dec a b then true else false.

(* the flags of a function type that lCheckTypeEquality compares *)
Record fflags := Flags { f_task : bool; f_export : bool; f_extern_c : bool; f_extern_sycl : bool; f_unmasked : bool }.

Inductive ty :=
| Atomic (v : variability) (c : bool) (b : basic)
| Enum (v : variability) (c : bool) (id : nat)
| Pointer (v : variability) (c slice frozen : bool) (space : nat) (base : ty)
| Array (base : ty) (n : N)             (* 0: unsized *)
| Vector (base : ty) (n : N)
| Struct (v : variability) (c : bool) (s : name)
| Ref (space : nat) (target : ty)
| Func (ret : ty) (params : list ty) (f : fflags).

(* The fields Type::variability and Type::isConst: type.cpp:1319-1350, 1436-1460, 1696-1708, 2371-2382 *)
Fixpoint var_of (t : ty) : variability :=
  match t with
  | Atomic v _ _ | Enum v _ _ | Pointer v _ _ _ _ _ | Struct v _ _ => v
  | Array b _ | Vector b _ | Ref _ b => var_of b
  | Func _ _ _ => Uniform
  end.
Fixpoint is_const (t : ty) : bool :=
  match t with
  | Atomic _ c _ | Enum _ c _ | Pointer _ c _ _ _ _ | Struct _ c _ => c
  | Array b _ | Vector b _ | Ref _ b => is_const b
  | Func _ _ _ => false
  end.
Definition is_varying (t : ty) : bool := var_eqb (var_of t) Varying.
Definition is_uniform (t : ty) : bool := var_eqb (var_of t) Uniform.
Definition soa_width (t : ty) : N := match var_of t with Soa n => n | _ => 0%N end.

(* type.cpp:230-275, 1352-1380; a reference is left alone *)
Fixpoint with_var (v : variability) (t : ty) : ty :=
  match t with
  | Atomic _ c b => Atomic v c b
  | Enum _ c i => Enum v c i
  | Pointer _ c s f a b => Pointer v c s f a b
  | Array b n => Array (with_var v b) n
  | Vector b n => Vector (with_var v b) n
  | Struct _ c s => Struct v c s
  | Ref a b => Ref a (with_var v b)
  | Func _ _ _ => t
  end.
(* 292-313, 1117-1131, 1416-1430: dropping (or adding) const thaws a pointer *)
Fixpoint with_const (k : bool) (t : ty) : ty :=
  match t with
  | Atomic v _ b => Atomic v k b
  | Enum v _ i => Enum v k i
  | Pointer v c s f a b => if Bool.eqb c k then t else Pointer v k s false a b
  | Array b n => Array (with_const k b) n
  | Vector b n => Vector (with_const k b) n
  | Struct v _ s => Struct v k s
  | Ref a b => Ref a (with_const k b)
  | Func _ _ _ => t
  end.
Definition ref_target (t : ty) : ty := match t with Ref _ b => b | _ => t end.

(** ** Equality: type.cpp:3386-3505 *)

Definition flags_eqb (f g : fflags) : bool :=
  Bool.eqb (f_task f) (f_task g) && Bool.eqb (f_export f) (f_export g) && Bool.eqb (f_extern_c f) (f_extern_c g)
  && Bool.eqb (f_extern_sycl f) (f_extern_sycl g) && Bool.eqb (f_unmasked f) (f_unmasked g).

Fixpoint equal (ignore_const : bool) (a b : ty) {struct a} : bool :=
  (ignore_const || Bool.eqb (is_const a) (is_const b)) &&
  match a, b with
  | Atomic v _ x, Atomic w _ y => basic_eqb x y && var_eqb v w
  | Enum v _ i, Enum w _ j => Nat.eqb i j && var_eqb v w
  | Array x m, Array y n => N.eqb m n && equal ignore_const x y
  | Vector x m, Vector y n => N.eqb m n && equal ignore_const x y
  | Struct v _ s, Struct w _ r => var_eqb v w && name_eqb s r
  | Pointer v _ s f p x, Pointer w _ s' f' p' y =>
      Bool.eqb (var_eqb v Uniform) (var_eqb w Uniform) && Bool.eqb s s' && Bool.eqb f f' && Nat.eqb p p'
      && equal ignore_const x y
  | Ref p x, Ref p' y => Nat.eqb p p' && equal ignore_const x y
  | Func r ps f, Func r' ps' f' =>
      equal ignore_const r r' && flags_eqb f f' &&
      (fix all (l m : list ty) : bool :=
         match l, m with
         | [], [] => true
         | x :: l, y :: m => equal ignore_const x y && all l m
         | _, _ => false
         end) ps ps'
  | _, _ => false
  end.

(** ** Mangling *)

Definition lit (s : string) : name := list_ascii_of_string s.
Arguments lit s%string_scope.
(* snprintf("%d") *)
Definition digits (n : N) : name := lit (NilEmpty.string_of_uint (N.to_uint n)).

(* type.cpp:82-101 *)
Definition mangle_var (v : variability) : name :=
  match v with
  | Uniform => lit "un"
  | Varying => lit "vy"
  | Soa n => lit "soa<" ++ digits n ++ lit ">"
  end.
(* 512-567 *)
Definition mangle_basic (b : basic) : name :=
  lit (match b with
       | TVoid => "v" | TBool => "b" | TInt1 => "B" | TInt8 => "t" | TUInt8 => "T" | TInt16 => "s" | TUInt16 => "S"
       | TInt32 => "i" | TUInt32 => "u" | TFloat16 => "h" | TFloat => "f" | TInt64 => "I" | TUInt64 => "U" | TDouble => "d"
       end)%string.

(* 512-567, 896-909, 1160-1181, 1537-1551, 1747-1749, 2107-2123, 2563-2571, 2807-2823 *)
Fixpoint mangle (enum_name : nat -> name) (t : ty) : name :=
  match t with
  | Atomic v c b => (if c then lit "C" else []) ++ mangle_var v ++ mangle_basic b
  | Enum v c i => (if c then lit "C" else []) ++ mangle_var v ++ lit "enum_5B_" ++ enum_name i ++ lit "_5D_"
  | Pointer v _ s f _ b =>
      mangle_var v ++ lit "_3C_" ++ (if s || f then lit "-" else []) ++ (if s then lit "s" else [])
      ++ (if f then lit "f" else []) ++ (if s || f then lit "-" else []) ++ mangle enum_name b ++ lit "_3E_"
  | Array b n => mangle enum_name b ++ lit "_5B_" ++ (if N.ltb 0 n then digits n else []) ++ lit "_5D_"
  | Vector b n => mangle enum_name b ++ lit "_3C_" ++ digits n ++ lit "_3E_"
  | Struct v c s => lit "s_5B_" ++ (if c then lit "_c_" else []) ++ mangle_var v ++ s ++ lit "_5D_"
  | Ref _ b => lit "REF" ++ mangle enum_name b
  | Func _ ps f => lit "___" ++ (if f_unmasked f then lit "UM_" else []) ++ flat_map (mangle enum_name) ps
  end.

(* Template arguments: func.cpp:936-949; integer constants only *)
Inductive targ := TType (t : ty) | TInt (t : ty) (value : Z).
Definition signed_digits (z : Z) : name := (if Z.ltb z 0 then lit "-" else []) ++ digits (Z.abs_N z).
Definition mangle_targ (enum_name : nat -> name) (a : targ) : name :=
  match a with
  | TType t => mangle enum_name t
  | TInt t z => mangle enum_name t ++ signed_digits z
  end.

(* The symbol of a function that is neither extern "C" nor unmangled: type.cpp:2954-2990,
   module.cpp:1075-1076, func.cpp:1316-1318.  [isa] is the target suffix of multi-target builds. *)
Definition symbol (enum_name : nat -> name) (f : name) (targs : option (list targ)) (ft : ty) (isa : option name) : name :=
  f ++ (match targs with Some l => lit "___" ++ flat_map (mangle_targ enum_name) l | None => [] end)
    ++ mangle enum_name ft ++ (match isa with Some s => lit "_" ++ s | None => [] end).

(** ** The common type of two operands: type.cpp:3213-3370 (function types and references left out:
    the operands are values by then; vector sizes are never forced here) *)

(* PointerType::Void is a uniform pointer to uniform void: 1052-1054 *)
Definition void_pointer (t : ty) : bool :=
  equal true (with_var Uniform t) (Pointer Uniform false false false 0 (Atomic Uniform false TVoid)).

(* the element type must be atomic (assertion) *)
Definition vector_of (t : option ty) (n : N) : option ty :=
  match t with Some (Atomic v c b) => Some (Vector (Atomic v c b) n) | _ => None end.

Definition mg_step (rec : ty -> ty -> option ty) (force_varying : bool) (t0 t1 : ty) : option ty :=
  let up := is_varying t0 || is_varying t1 || force_varying in
  let t0 := if up then with_var Varying t0 else t0 in
  let t1 := if up then with_var Varying t1 else t1 in
  if equal false t0 t1 then Some t0
  else if equal true t0 t1 then Some (with_const false t0)
  else
    match t0 with
    | Pointer _ _ _ _ _ _ =>
        match t1 with
        | Pointer _ _ _ _ _ _ => if void_pointer t0 then Some t1 else if void_pointer t1 then Some t0 else None
        | Vector b1 n1 => vector_of (rec t0 b1) n1
        | _ => None
        end
    | Vector b0 n0 =>
        match t1 with
        | Vector b1 n1 => if N.eqb n0 n1 then vector_of (rec b0 b1) n0 else None
        | _ => vector_of (rec b0 t1) n0
        end
    | Enum _ _ _ =>
        match t1 with
        | Vector b1 n1 => vector_of (rec t0 b1) n1
        | Enum _ _ _ => Some (Atomic (if is_varying t0 then Varying else Uniform) false TUInt32)
        | Atomic _ _ _ => Some t1
        | _ => None
        end
    | Atomic _ _ x =>
        match t1 with
        | Vector b1 n1 => vector_of (rec t0 b1) n1
        | Enum _ _ _ => Some t0
        | Atomic _ _ y => if Nat.leb (basic_num y) (basic_num x) then Some t0 else Some t1
        | _ => None
        end
    | _ => match t1 with Vector b1 n1 => vector_of (rec t0 b1) n1 | _ => None end
    end.
(* elements of vectors are no vectors, so two levels are enough *)
Definition more_general (force_varying : bool) (t0 t1 : ty) : option ty :=
  mg_step (mg_step (fun _ _ => None) force_varying) force_varying t0 t1.

(** ** Implicit conversions: expr.cpp:168-604 lDoTypeConv without an expression, as CanConvertTypes
    calls it *)

Definition is_void (t : ty) : bool := match t with Atomic _ _ TVoid => true | _ => false end.
Definition is_bool (t : ty) : bool := match t with Atomic _ _ TBool => true | _ => false end.

Definition is_func (t : ty) : bool := match t with Func _ _ _ => true | _ => false end.
Definition is_pointer (t : ty) : bool := match t with Pointer _ _ _ _ _ _ => true | _ => false end.
Definition is_ref (t : ty) : bool := match t with Ref _ _ => true | _ => false end.
Definition is_array (t : ty) : bool := match t with Array _ _ => true | _ => false end.
Definition is_struct (t : ty) : bool := match t with Struct _ _ _ => true | _ => false end.

(* 281-306: an array to a pointer *)
Definition conv_array_pointer (from to : ty) : bool :=
  match from, to with
  | Array e _, Pointer v c _ _ _ b =>
      if void_pointer to then true
      else equal false to (Pointer v c false false 0 (if is_const b then with_const true e else e))
  | _, _ => false
  end.
(* 331-400: a pointer to anything *)
Definition conv_pointer (from to : ty) : bool :=
  match from with
  | Pointer _ _ s _ p x =>
      match to with
      | Pointer _ _ s' _ q y =>
          if equal false x y && negb (Nat.eqb p q) then false
          else if s && negb s' then false
          else if void_pointer to then negb (is_const x && negb (is_const y))
          else equal false x y || equal false (with_const true x) y || equal true x y
      | Array e _ => equal false x e
      | _ => is_bool to
      end
  | _ => false
  end.
(* 428-448: a reference to a reference *)
Definition conv_ref_ref (from to : ty) : bool :=
  match from, to with
  | Ref _ x, Ref _ y =>
      if equal false y (with_const true x) then true
      else match x, y with Array ex _, Array ey _ => equal false ex ey | _, _ => false end
  | _, _ => false
  end.
Definition ref_space (t : ty) : nat := match t with Ref p _ => p | _ => 0 end.
(* 478-603: the rest *)
Definition conv_rest (from to : ty) : bool :=
  match from, to with
  | Array x _, Array y _ => equal false y x || equal false y (with_const true x)
  | Vector _ m, Vector _ n => N.eqb m n
  | Struct _ _ _, Struct _ _ _ =>
      equal false (with_const true (with_var Uniform to)) (with_const true (with_var Uniform from))
  | Enum _ _ _, Enum _ _ _ => equal true (with_var Uniform to) (with_var Uniform from)
  | Enum _ _ _, Atomic _ _ _ => true
  | Enum _ _ _, Vector _ _ => true
  | Atomic _ _ _, Vector _ _ => N.eqb (soa_width from) (soa_width to)
  | Atomic _ _ _, Atomic _ _ _ => N.eqb (soa_width from) (soa_width to)
  | _, _ => false
  end.

Definition conv_step (rec : ty -> ty -> bool) (from to : ty) : bool :=
  if equal false to from then true
  else if is_void from then false
  else if is_void to then false
  else if is_func from then is_pointer to && rec (Pointer Uniform false false false 0 from) to
  else if is_func to then false
  else if (negb (N.eqb (soa_width to) 0) || negb (N.eqb (soa_width from) 0))
          && equal false (with_var Uniform to) (with_var Uniform from) && negb (N.eqb (soa_width to) (soa_width from))
       then false
  else if is_array from && is_pointer to then conv_array_pointer from to
  else if is_uniform to && is_varying from then false
  else if is_ref from && is_ref to && equal false (ref_target from) (ref_target to)
          && negb (Nat.eqb (ref_space from) (ref_space to)) then false
  else if is_pointer from then conv_pointer from to
  else if is_struct from && is_struct to && negb (N.eqb (soa_width from) (soa_width to)) then false
  else if equal true to from && is_const to && negb (is_const from) then true
  else if is_ref from then if is_ref to then conv_ref_ref from to else rec (ref_target from) to
  else if is_ref to then rec (Ref 0 from) to
  else if equal false to (with_const false from) then true
  else conv_rest from to.
(* a function becomes a pointer, or a reference is added or taken away: the third level finishes *)
Definition can_convert : ty -> ty -> bool := conv_step (conv_step (conv_step (fun _ _ => false))).

(** ** Overload resolution *)

(* expr.cpp:9350-9391 *)
Definition widening_basic (x y : basic) : bool :=
  match x with
  | TInt1 | TBool => true
  | TInt8 | TUInt8 => negb (basic_eqb y TBool) && negb (basic_eqb y TInt1)
  | TInt16 | TUInt16 =>
      negb (basic_eqb y TBool) && negb (basic_eqb y TInt1) && negb (basic_eqb y TInt8) && negb (basic_eqb y TUInt8)
  | TInt32 | TUInt32 => basic_eqb y TInt32 || basic_eqb y TUInt32 || basic_eqb y TInt64 || basic_eqb y TUInt64
  | TFloat16 => basic_eqb y TFloat || basic_eqb y TDouble
  | TFloat => basic_eqb y TDouble
  | TInt64 | TUInt64 => basic_eqb y TInt64 || basic_eqb y TUInt64
  | TDouble | TVoid => false
  end.
Definition widening (from to : ty) : bool :=
  match from, to with
  | Atomic v _ x, Atomic w _ y => Bool.eqb (var_eqb v Uniform) (var_eqb w Uniform) && widening_basic x y
  | _, _ => false
  end.

Local Open Scope Z_scope.
Definition points (t : ty) : bool := match ref_target t with Pointer _ _ _ _ _ _ => true | _ => false end.

(* An argument of a call: its type, whether it is a null constant, whether it is a constant. *)
Record arg := Arg { a_type : ty; a_null : bool; a_constant : bool }.

(* expr.cpp:9826-9923: cost of one argument in a call with [n] of them; None is -1 *)
Definition arg_cost (n : nat) (a : arg) (farg : ty) : option Z :=
  let call := a_type a in
  let scale0 := Z.of_nat n + 1 in
  if equal false call farg then Some 0
  else if a_null a && points farg then Some 0
  else
    let scale := if a_constant a then scale0 else scale0 * 512 in
    match farg with
    | Ref _ _ =>
        if is_const call && negb (is_const farg) then None
        else
          let c := if negb (is_const call) && is_const farg then 2 * scale else 0 in
          if equal false (with_const false (ref_target call)) (with_const false (ref_target farg))
          then Some (c + 2 * scale) else None
    | _ =>
        let np := ref_target call in
        let c := match call with Ref _ _ => 2 * scale | _ => 0 end in
        let nc := with_const false np in
        let fnc := with_const false farg in
        if equal true np farg then Some (c + 1 * scale)
        else if widening nc fnc then Some (c + 8 * scale)
        else if is_varying farg && is_uniform call then
          if equal false (with_var Varying nc) fnc then Some (c + 16 * scale)
          else if widening (with_var Varying nc) fnc then Some (c + 128 * scale)
          else if can_convert nc fnc then Some (c + 128 * scale + 64 * scale) else None
        else if can_convert nc fnc then Some (c + 64 * scale) else None
    end.

(* 9810-9929 computeOverloadCost: the sum *)
Fixpoint sum_costs (n : nat) (args : list arg) (params : list ty) : option Z :=
  match args, params with
  | [], _ => Some 0
  | a :: args, p :: params =>
      match arg_cost n a p, sum_costs n args params with Some c, Some d => Some (c + d) | _, _ => None end
  | _ :: _, [] => None
  end.

(* A function (or template instance) found by name: its parameter types and how many of the last ones
   have default values *)
Record candidate := Cand { c_id : nat; c_params : list ty; c_defaults : nat }.

(* 9396-9418 getCandidateFunctions.  (The defaults of a declaration are its last parameters.) *)
Definition accepts (n : nat) (c : candidate) : bool :=
  Nat.leb n (length (c_params c)) && Nat.leb (length (c_params c) - c_defaults c) n.

Definition candidate_cost (args : list arg) (c : candidate) : option Z := sum_costs (length args) args (c_params c).

(* 9944-10007 FindBestMatchCost, for any cost function: the smallest cost, or 2^30, and the candidates
   that have it *)
Definition no_match : Z := 2 ^ 30.
Definition find_best (cost : candidate -> option Z) (cands : list candidate) : Z * list candidate :=
  let best := fold_left (fun b c => match cost c with Some k => if k <? b then k else b | None => b end) cands no_match in
  if best =? no_match then (no_match, [])
  else (best, filter (fun c => match cost c with Some k => k =? best | None => false end) cands).

Inductive resolved := Chosen (c : candidate) | Ambiguous | NoMatch.

(* 10011-10119 ResolveOverloads.  [explicit]: the call gives template arguments. *)
Definition resolve (cost : candidate -> option Z) (explicit : bool) (funcs templates : list candidate) : resolved :=
  let (bf, mf) := find_best cost funcs in
  let (bt, mt) := find_best cost templates in
  if (bf =? no_match) && (bt =? no_match) then NoMatch
  else
    match mf, mt with
    | [f], [t] =>
        if bf =? bt then Chosen (if explicit then t else f) else if bt <? bf then Chosen t else Chosen f
    | [f], [] => Chosen f
    | [], [t] => Chosen t
    | [], [] => NoMatch
    | _, _ => Ambiguous
    end.

Definition resolve_call (args : list arg) (explicit : bool) (funcs templates : list candidate) : resolved :=
  resolve (candidate_cost args) explicit (filter (accepts (length args)) funcs) templates.
