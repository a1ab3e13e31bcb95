(** Function templates: deduction of the template arguments of a call, the types of an instance, and the
    list of instances of a template, as in src/expr.cpp, src/func.cpp, src/type.cpp and src/module.cpp.

    Simplifications: atomic, enum and struct types are one constructor with a number for the type's
    identity; pointers have no slice property and no address space; there are no function types below
    the top; the value of a non-type argument is a number with the number of its type (the literal's
    type, as the parser makes it), and the conversion of that value to the type of the template's
    parameter is the identity; the body of an instance is only named; storage class, inline and unmasked
    specifiers, the completeness test of AddInstantiation and all diagnostics are left out. *)
From Coq Require Import ZArith NArith Bool Ascii List.
Import ListNotations.
Local Open Scope bool_scope.

Definition name := list ascii.
Definition name_eqb (a b : name) : bool := if list_eq_dec ascii_dec a b then true else false.

(* type.h:37-63 Variability, without soa *)
Inductive vr := Unb | Uni | Vry.
Definition vr_eqb (a b : vr) : bool :=
  match a, b with Unb, Unb | Uni, Uni | Vry, Vry => true | _, _ => false end.

(* type.h:610-637 SequentialType::ElementCount: a number, or the symbol of a template parameter *)
Inductive cnt := CFix (n : N) | CSym (x : name).

(* type.h:89-1060.  A reference keeps its own copies of the variability and constness (type.cpp:2371-2380) *)
Inductive ty :=
| Atom (v : vr) (c : bool) (b : nat)
| Parm (v : vr) (c : bool) (x : name)
| Ptr (v : vr) (c : bool) (t : ty)
| Ref (v : vr) (c : bool) (t : ty)
| Vec (t : ty) (n : cnt)
| Arr (t : ty) (n : cnt).

(* type.h:124, 155; a sequential type copies them from its elements: type.cpp:1325-1350 *)
Fixpoint var_of (t : ty) : vr :=
  match t with
  | Atom v _ _ | Parm v _ _ | Ptr v _ _ | Ref v _ _ => v
  | Vec b _ | Arr b _ => var_of b
  end.
Fixpoint is_const (t : ty) : bool :=
  match t with
  | Atom _ c _ | Parm _ c _ | Ptr _ c _ | Ref _ c _ => c
  | Vec b _ | Arr b _ => is_const b
  end.
Definition is_uni (t : ty) : bool := vr_eqb (var_of t) Uni.
Definition is_vry (t : ty) : bool := vr_eqb (var_of t) Vry.
Definition is_ref (t : ty) : bool := match t with Ref _ _ _ => true | _ => false end.

(* type.cpp:2371-2380 ReferenceType::ReferenceType *)
Definition mk_ref (t : ty) : ty := Ref (var_of t) (is_const t) t.
(* type.cpp:2386-2390 ReferenceType::createWithBaseType: the copy constructor takes the two fields from
   the old target, and they stay when the target is replaced *)
Definition ref_with_base (old new : ty) : ty := Ref (var_of old) (is_const old) new.

(* type.cpp:230-268 GetAsVaryingType and GetAsUniformType, 1353-1372, 2447-2466 *)
Fixpoint with_var (v : vr) (t : ty) : ty :=
  match t with
  | Atom _ c b => Atom v c b
  | Parm _ c x => Parm v c x
  | Ptr _ c b => Ptr v c b
  | Ref w c b => if vr_eqb w v then t else ref_with_base b (with_var v b)
  | Vec b n => Vec (with_var v b) n
  | Arr b n => Arr (with_var v b) n
  end.
(* type.cpp:292-315, 1117-1135, 1415-1428, 2501-2533 GetAsConstType and GetAsNonConstType *)
Fixpoint with_const (k : bool) (t : ty) : ty :=
  match t with
  | Atom v _ b => Atom v k b
  | Parm v _ x => Parm v k x
  | Ptr v _ b => Ptr v k b
  | Ref _ c b => if Bool.eqb c k then t else ref_with_base b (with_const k b)
  | Vec b n => Vec (with_const k b) n
  | Arr b n => Arr (with_const k b) n
  end.
(* type.cpp:244-255, 1105-1115, 1391-1397, 2493-2499 ResolveUnboundVariability *)
Fixpoint resolve_unbound (v : vr) (t : ty) : ty :=
  match t with
  | Atom w c b => if vr_eqb w Unb then Atom v c b else t
  | Parm w c x => if vr_eqb w Unb then Parm v c x else t
  | Ptr w c b => Ptr (if vr_eqb w Unb then v else w) c (resolve_unbound Uni b)
  | Ref _ _ b => ref_with_base b (resolve_unbound v b)
  | Vec b n => Vec (resolve_unbound v b) n
  | Arr b n => Arr (resolve_unbound v b) n
  end.

(* type.h:637 GetElementCount *)
Definition fixed_count (n : cnt) : N := match n with CFix n => n | CSym _ => 0%N end.
(* type.cpp:3386-3503 lCheckTypeEquality with ignoreConst off *)
Fixpoint type_equal (a b : ty) : bool :=
  Bool.eqb (is_const a) (is_const b) &&
  match a, b with
  | Atom v _ i, Atom w _ j => Nat.eqb i j && vr_eqb v w
  | Arr s m, Arr t n | Vec s m, Vec t n => N.eqb (fixed_count m) (fixed_count n) && type_equal s t
  | Ptr v _ s, Ptr w _ t => Bool.eqb (vr_eqb v Uni) (vr_eqb w Uni) && type_equal s t
  | Ref _ _ s, Ref _ _ t => type_equal s t
  | Parm v _ x, Parm w _ y => name_eqb x y && vr_eqb v w
  | _, _ => false
  end.

(* type.cpp:156-228 IsTypeDependent, IsCountDependent, IsDependent *)
Fixpoint is_type_dep (t : ty) : bool :=
  match t with
  | Atom _ _ _ => false
  | Parm _ _ _ => true
  | Ptr _ _ b | Ref _ _ b | Vec b _ | Arr b _ => is_type_dep b
  end.
Definition is_count_dep (t : ty) : bool :=
  match t with Vec _ (CSym _) | Arr _ (CSym _) => true | _ => false end.
Definition is_dep (t : ty) : bool := is_type_dep t || is_count_dep t.

(* func.h TemplateArg; a value with the number of its type.  func.cpp:876-893 *)
Inductive targ := AType (t : ty) | AVal (b : nat) (z : Z).
(* GetAsType: the type of the expression for a non-type argument, which is const: parse.yy:3059-3104 *)
Definition arg_type (a : targ) : ty := match a with AType t => t | AVal b _ => Atom Uni true b end.
(* 915-934 TemplateArg::operator==, with ConstExpr::IsEqual of expr.cpp:6439-6448 *)
Definition targ_equal (a b : targ) : bool :=
  match a, b with
  | AType s, AType t => type_equal s t
  | AVal i m, AVal j n => Nat.eqb i j && Z.eqb m n
  | _, _ => false
  end.
Fixpoint targs_equal (a b : list targ) : bool :=
  match a, b with
  | [], [] => true
  | x :: a', y :: b' => targ_equal x y && targs_equal a' b'
  | _, _ => false
  end.
(* 951-955 SetAsVaryingType *)
Definition set_as_varying (a : targ) : targ :=
  match a with AType t => if vr_eqb (var_of t) Unb then AType (with_var Vry t) else a | AVal _ _ => a end.
(* expr.cpp:9194-9206 normalizeTemplateArgs *)
Definition is_parm (t : ty) : bool := match t with Parm _ _ _ => true | _ => false end.
Definition normalize (a : targ) : targ := if is_parm (arg_type a) then a else set_as_varying a.

(* func.cpp:1195-1240 TemplateInstantiation: argsMap, AddArgument, InstantiateType, InstantiateExpr *)
Definition env := list (name * targ).
Fixpoint lookup (e : env) (x : name) : option targ :=
  match e with [] => None | (y, a) :: r => if name_eqb y x then Some a else lookup r x end.
Definition add_argument (e : env) (x : name) (a : targ) : env := (x, a) :: e.
Definition inst_type (e : env) (x : name) : option ty := option_map arg_type (lookup e x).
Definition inst_expr (e : env) (x : name) : option (nat * Z) :=
  match lookup e x with Some (AVal b z) => Some (b, z) | _ => None end.

(* type.cpp:1679-1695, 1859-1875 ResolveElementCount; 1495-1507, 1726-1731: a count that is not positive
   leaves the symbol *)
Definition resolve_count (e : env) (n : cnt) : cnt :=
  match n with
  | CFix _ => n
  | CSym x => match inst_expr e x with
              | Some (_, z) => if Z.ltb 0 z then CFix (Z.to_N z) else n
              | None => n
              end
  end.
(* type.cpp:788-811, 1090-1103, 1495-1507, 1726-1731, 2485-2491 ResolveDependence *)
Fixpoint resolve_dep (e : env) (t : ty) : ty :=
  match t with
  | Atom _ _ _ => t
  | Parm v c x =>
      match inst_type e x with
      | None => t
      | Some r =>
          let r := match v with Unb => r | Uni => with_var Uni r | Vry => with_var Vry r end in
          if c then with_const true r else r
      end
  | Ptr v c b => Ptr v c (resolve_dep e b)
  | Ref _ _ b => ref_with_base b (resolve_dep e b)
  | Vec b n => Vec (resolve_dep e b) (resolve_count e n)
  | Arr b n => Arr (resolve_dep e b) (resolve_count e n)
  end.
(* type.cpp:129-133 ResolveDependenceForTopType *)
Definition resolve_top (e : env) (t : ty) : ty := resolve_unbound Vry (resolve_dep e t).

(* expr.cpp:9421-9475 lDeduceParam.  Stripping const from two pointers does not change their bases; two
   references are not stripped *)
Fixpoint deduce_param (p a : ty) : option (name * ty) :=
  match p with
  | Ref _ _ p' => match a with Ref _ _ a' => deduce_param p' a' | _ => None end
  | Ptr _ _ p' => match a with Ptr _ _ a' => deduce_param p' a' | _ => None end
  | Parm v c x =>
      let a := if c && (is_const a && negb (is_ref a)) then with_const false a else a in
      match v with
      | Uni => if is_vry a then None else if is_uni a then Some (x, with_var Vry a) else Some (x, a)
      | Vry => if is_vry a then Some (x, with_var Uni a) else Some (x, a)
      | Unb => Some (x, a)
      end
  | _ => None
  end.

(* expr.cpp:9479-9513 lCheckDeductionCompatibility for types: the new map, or nothing if it failed *)
Definition check_type (e : env) (d : option (name * ty)) : option env :=
  match d with
  | None => None
  | Some (x, t) =>
      match inst_type e x with
      | None => Some (add_argument e x (AType t))
      | Some prev =>
          if type_equal prev t then Some e
          else if is_uni prev && is_vry t && type_equal (with_var Vry prev) t
               then Some (add_argument e x (AType t))
               else if is_vry prev && is_uni t then Some e else None
      end
  end.
(* 9515-9538, for values *)
Definition check_value (e : env) (x : name) (b : nat) (z : Z) : option env :=
  match inst_expr e x with
  | Some (b', z') => if Nat.eqb b b' && Z.eqb z z' then Some e else None
  | None => Some (add_argument e x (AVal b z))
  end.

(* AtomicType::UniformInt32 as the type of a value *)
Definition int32 : nat := 7.
(* type.cpp:1733-1741 VectorType::GetCountString: a buffer of 16 characters *)
Definition count_string (x : name) : name := firstn 15 x.
(* expr.cpp:9540-9562 lDeduceVectorParams *)
Definition deduce_vector (e : env) (pe : ty) (pn : cnt) (ae : ty) (an : cnt) : option env :=
  match pe, pn with
  | Parm _ _ _, CSym x =>
      match check_type e (deduce_param pe ae) with
      | None => None
      | Some e' => check_value e' (count_string x) int32 (Z.of_N (fixed_count an))
      end
  | _, _ => None
  end.

(* 9688-9740: what is done with the parameter and the argument before they are compared *)
Definition adjust_arg (a : ty) : ty := match a with Ref _ _ t => t | _ => a end.
Definition decay (a : ty) : ty := match a with Arr t _ => Ptr Uni false t | _ => a end.
(* one dependent parameter: 9680-9745 *)
Definition deduce_one (e : env) (p a : ty) : option env :=
  let a := adjust_arg a in
  let '(p, a) := match p with
                 | Ref _ _ t => (t, a)
                 | _ => (with_const false p, with_const false (decay a))
                 end in
  match p with
  | Vec pe pn => match a with Vec ae an => deduce_vector e pe pn ae an | _ => None end
  | _ => check_type e (deduce_param p a)
  end.

(* the outcome for one template of a set of overloads *)
Inductive outcome (A : Type) := Match (a : A) | NoMatch | Undefined.
Arguments Match {A} _. Arguments NoMatch {A}. Arguments Undefined {A}.

(* 9678-9748 the loop over the parameters; reading argTypes past its end is undefined *)
Fixpoint deduce_all (e : env) (ps args : list ty) : outcome env :=
  match ps with
  | [] => Match e
  | p :: ps' =>
      if is_dep p then
        match args with
        | [] => Undefined
        | a :: args' => match deduce_one e p a with
                        | None => NoMatch
                        | Some e' => deduce_all e' ps' args'
                        end
        end
      else deduce_all e ps' (tl args)
  end.

(* func.cpp:806-840 TemplateParam; func.cpp:970-990 the template with its function's parameters *)
Inductive tparam := PType (x : name) | PNon (x : name) (b : nat).
Definition tparam_name (p : tparam) : name := match p with PType x => x | PNon x _ => x end.
Record templ := Templ { t_parms : list tparam; t_params : list (ty * bool) (* type, has a default *); t_ret : ty }.

(* expr.cpp:603-735 CanConvertTypes into the uniform integer, bool or enum type of a non-type parameter:
   any uniform number converts; neither do varying values nor other types (pointers to bool are left out) *)
Definition can_convert (from : ty) : bool :=
  match from with Atom v _ _ => negb (vr_eqb v Vry) | _ => false end.

(* 9630-9642 *)
Fixpoint check_explicit (ps : list tparam) (args : list targ) : bool :=
  match ps, args with
  | PNon _ _ :: ps', a :: args' => can_convert (arg_type a) && check_explicit ps' args'
  | _ :: ps', _ :: args' => check_explicit ps' args'
  | _, _ => true
  end.

(* func.cpp:1195-1210 the constructor's map of the explicit arguments; a later parameter of the same name
   would replace an earlier one *)
Fixpoint init_env (ps : list tparam) (args : list targ) (e : env) : env :=
  match ps, args with
  | p :: ps', a :: args' => init_env ps' args' (add_argument e (tparam_name p) a)
  | _, _ => e
  end.

(* 9754-9786 the complete list of arguments *)
Definition deduced_arg (e : env) (p : tparam) : option targ :=
  match p with
  | PType x => match inst_type e x with
               | Some t => if is_dep t then None else Some (AType t)
               | None => None
               end
  | PNon x _ => match inst_expr e x with Some (b, z) => Some (AVal b z) | None => None end
  end.
Fixpoint build_args (e : env) (ps : list tparam) (explicit : list targ) : option (list targ) :=
  match ps with
  | [] => Some []
  | p :: ps' =>
      match explicit with
      | a :: ex' => option_map (cons a) (build_args e ps' ex')
      | [] => match deduced_arg e p, build_args e ps' [] with
              | Some a, Some r => Some (a :: r)
              | _, _ => None
              end
      end
  end.

(* 9565-9800 getCandidateTemplateFunctions for one template: the template arguments of the instance *)
Definition template_args (t : templ) (explicit : list targ) (args : list ty) : outcome (list targ) :=
  let n := length args in
  let k := length (t_params t) in
  if Nat.ltb k n then NoMatch
  else if Nat.ltb n k && negb (snd (nth n (t_params t) (Atom Unb false 0, false))) then NoMatch
  else if Nat.eqb (length explicit) (length (t_parms t)) then
         if check_explicit (t_parms t) explicit then Match explicit else NoMatch
  else if Nat.ltb (length (t_parms t)) (length explicit) then NoMatch
  else
    let e := init_env (t_parms t) explicit [] in
    match deduce_all e (map (resolve_dep e) (map fst (t_params t))) args with
    | NoMatch => NoMatch
    | Undefined => Undefined
    | Match e' => match build_args e' (t_parms t) explicit with Some r => Match r | None => NoMatch end
    end.

(* type.cpp:2704-2722 FunctionType::ResolveDependence with the map of a complete list of arguments
   (func.cpp:1145-1150, 1290-1300): the parameter types and the return type of an instance *)
Definition inst_params (t : templ) (args : list targ) : list ty :=
  map (fun p => resolve_top (init_env (t_parms t) args []) (fst p)) (t_params t).
Definition inst_ret (t : templ) (args : list targ) : ty :=
  resolve_top (init_env (t_parms t) args []) (t_ret t).

(** ** The instances of a template *)
(* which statements an instance runs: the template's, those of a specialization (a number for its
   source), or none yet (parentFunction is null) *)
Inductive body := Primary | Special (id : nat) | NoBody.
(* func.h TemplateInstantiationInfo with the symbol's type and parentFunction; the symbol is the position *)
(* i_llvm: the return type of the llvm::Function, which is always made from the template's own type
   (func.cpp:1165-1175, 1290-1305), also for a specialization *)
Record inst := Inst { i_args : list targ; i_params : list ty; i_ret : ty; i_llvm : ty; i_body : body }.
Definition insts := list inst.

(* func.cpp:1121-1129 LookupInstantiation *)
Fixpoint lookup_inst (l : insts) (args : list targ) (k : nat) : option nat :=
  match l with
  | [] => None
  | i :: r => if targs_equal (i_args i) args then Some k else lookup_inst r args (S k)
  end.
(* 1131-1163 AddInstantiation *)
Definition add_inst (t : templ) (l : insts) (args : list targ) : insts :=
  l ++ [Inst args (inst_params t args) (inst_ret t args) (inst_ret t args) Primary].
(* expr.cpp:9790-9797: a call, which gives the instance called *)
Definition call (t : templ) (l : insts) (args : list targ) : insts * nat :=
  match lookup_inst l args 0 with
  | Some k => (l, k)
  | None => (add_inst t l args, length l)
  end.

(* module.cpp:1404-1432 MatchFunctionTemplate *)
Fixpoint params_match (e : env) (ps : list (ty * bool)) (fs : list ty) : bool :=
  match ps, fs with
  | [], [] => true
  | p :: ps', f :: fs' => type_equal f (resolve_dep e (fst p)) && params_match e ps' fs'
  | _, _ => false
  end.
Definition match_template (t : templ) (args : list targ) (fs : list ty) : bool :=
  Nat.eqb (length args) (length (t_parms t)) && params_match (init_env (t_parms t) args []) (t_params t) fs.
Fixpoint types_equal (a b : list ty) : bool :=
  match a, b with
  | [], [] => true
  | x :: a', y :: b' => type_equal x y && types_equal a' b'
  | _, _ => false
  end.
Definition set_inst (l : insts) (k : nat) (f : inst -> inst) : insts :=
  match nth_error l k with
  | Some i => firstn k l ++ f i :: skipn (S k) l
  | None => l
  end.
Definition has_body (i : inst) : bool := match i_body i with NoBody => false | _ => true end.

(* module.cpp:1495-1526 AddFunctionTemplateSpecializationDeclaration with func.cpp:1165-1190
   AddSpecialization; None: an error is reported *)
Definition declare_special (t : templ) (l : insts) (args : list targ) (fs : list ty) (ret : ty) : option insts :=
  let args := map set_as_varying args in
  if negb (match_template t args fs) then None
  else match lookup_inst l args 0 with
       | Some k =>
           match nth_error l k with
           | Some i => if types_equal (i_params i) fs && type_equal (i_ret i) ret && has_body i
                       then None else Some l
           | None => Some l
           end
       | None => Some (l ++ [Inst args fs ret (inst_ret t args) NoBody])
       end.
(* 1466-1493 AddFunctionTemplateSpecializationDefinition, which parse.yy:3295-3311 runs after the
   declaration; in an error case of the declaration nothing is called that could hide it *)
Definition define_special (t : templ) (l : insts) (args : list targ) (fs : list ty) (ret : ty) (id : nat)
  : option insts :=
  match declare_special t l args fs ret with
  | None => None
  | Some l =>
      match lookup_inst l (map set_as_varying args) 0 with
      | Some k => Some (set_inst l k (fun i => Inst (i_args i) fs ret (i_llvm i) (Special id)))
      | None => None
      end
  end.
(* 1434-1464 AddFunctionTemplateInstantiation: no lookup *)
Definition explicit_inst (t : templ) (l : insts) (args : list targ) (fs : list ty) : option insts :=
  let args := map set_as_varying args in
  if match_template t args fs then Some (add_inst t l args) else None.

(* func.cpp:1046-1060 FunctionTemplate::GenerateIR, 658-673 Function::GenerateIR: the mangled name is made
   of the template arguments and the template's type for them, so instances with the same arguments share
   one llvm::Function (func.cpp:1311-1365); the second definition of it is an error, as is an instance
   without a body *)
Definition same_symbol (a b : inst) : bool := targs_equal (i_args a) (i_args b).
Fixpoint generate (l : insts) (done : insts) : bool :=
  match l with
  | [] => true
  | i :: r => has_body i && negb (existsb (same_symbol i) done) && generate r (i :: done)
  end.

(* the commands of a source file that concern one template, in order *)
Inductive cmd :=
| Call (explicit : list targ) (args : list ty)
| Declare (args : list targ) (fs : list ty) (ret : ty)
| Define (args : list targ) (fs : list ty) (ret : ty) (id : nat)
| Instantiate (args : list targ) (fs : list ty).
(* one command: the new instances and the instance called; None: an error, or undefined behaviour *)
Definition step (t : templ) (l : insts) (c : cmd) : option (insts * option nat) :=
  match c with
  | Call ex args =>
      match template_args t (map normalize ex) args with
      | Match targs => let '(l', k) := call t l targs in Some (l', Some k)
      | _ => None
      end
  | Declare args fs ret => option_map (fun l => (l, None)) (declare_special t l args fs ret)
  | Define args fs ret id => option_map (fun l => (l, None)) (define_special t l args fs ret id)
  | Instantiate args fs => option_map (fun l => (l, None)) (explicit_inst t l args fs)
  end.
Fixpoint run (t : templ) (l : insts) (cs : list cmd) : option (insts * list (option nat)) :=
  match cs with
  | [] => Some (l, [])
  | c :: r => match step t l c with
              | None => None
              | Some (l', o) => match run t l' r with
                                | None => None
                                | Some (l'', os) => Some (l'', o :: os)
                                end
              end
  end.
