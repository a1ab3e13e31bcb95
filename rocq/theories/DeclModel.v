(** Declarations: how the specifiers and the declarator of a declaration become the type of what is declared, and the values of
    enumerators.  The parser's actions (src/parse.yy) that build Declarator objects, and src/decl.cpp.

    Simplifications: atomic, structure and enumeration types are one constructor with a number; signed/unsigned, short vectors, soa<>,
    attributes, storage classes and the qualifiers of functions (task, export, inline, ...) are left out; names are left out except for
    the names of typedefs.  An error message and an assertion failure are both [None]. *)
From Coq Require Import ZArith List Bool Arith.
Import ListNotations.

(** src/type.h: Variability (without SOA) and the types.  [Arr 0]: an array without a size.  A reference has a variability of its own, set
    when it is made (type.cpp 2371-2379); arrays take theirs from the element (1435-1444), functions are uniform (2640-2649), as is void
    (363). *)
Inductive var := Unb | Uni | Vry.
Inductive ty :=
| Atom (v : var) (c : bool) (b : nat)
| Void (c : bool)
| Ptr (v : var) (c : bool) (t : ty)
| Arr (n : nat) (t : ty)
| Ref (v : var) (t : ty)
| Fun (r : ty) (ps : list ty).
Fixpoint var_of (t : ty) : var :=
  match t with Atom v _ _ => v | Void _ => Uni | Ptr v _ _ => v | Arr _ t => var_of t | Ref v _ => v | Fun _ _ => Uni end.
Definition is_var (a b : var) : bool := match a, b with Unb, Unb | Uni, Uni | Vry, Vry => true | _, _ => false end.

(** type.cpp 257-269, 1364-1373, 2458-2467, 2688-2692: GetAsUniformType.  createWithBaseType of a reference (2386-2390) does not update its
    variability, which the copy has taken from the old target. *)
Fixpoint as_uniform (t : ty) : option ty :=
  match t with
  | Atom _ c b => Some (Atom Uni c b)
  | Void c => Some (Void c)
  | Ptr _ c t => Some (Ptr Uni c t)
  | Arr n t => option_map (Arr n) (as_uniform t)
  | Ref v t => if is_var v Uni then Some (Ref v t) else option_map (Ref (var_of t)) (as_uniform t)
  | Fun r ps => Some (Fun r ps)
  end.
(** 230-242, 1353-1362, 2447-2456, 2686: GetAsVaryingType; nullptr for functions. *)
Fixpoint as_varying (t : ty) : option ty :=
  match t with
  | Atom _ c b => Some (Atom Vry c b)
  | Void c => Some (Void c)
  | Ptr _ c t => Some (Ptr Vry c t)
  | Arr n t => option_map (Arr n) (as_varying t)
  | Ref v t => if is_var v Vry then Some (Ref v t) else option_map (Ref (var_of t)) (as_varying t)
  | Fun _ _ => None
  end.
(** 271-277, 1375-1381, 2469-2478, 2694-2697: GetAsUnboundVariabilityType; a fatal error for functions. *)
Fixpoint as_unbound (t : ty) : option ty :=
  match t with
  | Atom _ c b => Some (Atom Unb c b)
  | Void c => Some (Void c)
  | Ptr _ c t => Some (Ptr Unb c t)
  | Arr n t => option_map (Arr n) (as_unbound t)
  | Ref v t => if is_var v Unb then Some (Ref v t) else option_map (Ref (var_of t)) (as_unbound t)
  | Fun _ _ => None
  end.
(** 292-302, 1117-1123, 1415-1421, 2501-2516, 2743: GetAsConstType. *)
Fixpoint as_const (t : ty) : ty :=
  match t with
  | Atom v _ b => Atom v true b
  | Void _ => Void true
  | Ptr v _ t => Ptr v true t
  | Arr n t => Arr n (as_const t)
  | Ref v t => Ref (var_of t) (as_const t)
  | Fun r ps => Fun r ps
  end.
(** 244-255, 1105-1115, 1391-1397, 2493-2499, 2724-2741: ResolveUnboundVariability; behind a pointer it is uniform. *)
Definition pick (v w : var) : var := match w with Unb => v | _ => w end.
Fixpoint resolve (v : var) (t : ty) : ty :=
  match t with
  | Atom w c b => Atom (pick v w) c b
  | Void c => Void c
  | Ptr w c t => Ptr (pick v w) c (resolve Uni t)
  | Arr n t => Arr n (resolve v t)
  | Ref _ t => Ref (var_of t) (resolve v t)
  | Fun r ps => Fun (resolve v r) (map (resolve v) ps)
  end.

(** ** Specifiers *)
Inductive qual := QConst | QUniform | QVarying.
Record quals := Q { qc : bool; qu : bool; qv : bool }.
Definition no_quals := Q false false false.
Definition add_qual (a : qual) (q : quals) : quals :=
  match a with QConst => Q true (qu q) (qv q) | QUniform => Q (qc q) true (qv q) | QVarying => Q (qc q) (qu q) true end.
(** parse.yy type_specifier: a built-in type, void, or the name of a typedef. *)
Inductive spec := SBuiltin (b : nat) | SVoid | SName (x : nat) | SQual (q : qual).
(** The symbol table's types (sym.cpp 244-318): the latest first. *)
Definition env := list (nat * ty).
Fixpoint lookup (e : env) (x : nat) : option ty :=
  match e with [] => None | (y, t) :: r => if x =? y then Some t else lookup r x end.
(** sym.cpp 305-314 ContainsType compares addresses.  A built-in type is a new object each time it is written, but void is the one object
    AtomicType::Void, which is also what `typedef void V` enters. *)
Definition is_void (t : ty) : bool := match t with Void _ => true | _ => false end.
Definition has_void (e : env) : bool := existsb (fun '(_, t) => match t with Void false => true | _ => false end) e.
Definition spec_type (e : env) (s : spec) : option (ty * bool) :=
  match s with
  | SBuiltin b => Some (Atom Unb false b, false)
  | SVoid => Some (Void false, has_void e)
  | SName x => option_map (fun t => (t, true)) (lookup e x)
  | SQual _ => None
  end.
Record dspecs := DS { d_base : option ty; d_quals : quals }.
(** decl.cpp 343-362: the constructor takes the variability of a type that is in the symbol table. *)
Definition new_specs (t : ty) (contained : bool) : dspecs :=
  DS (Some t) (if contained then match var_of t with Vry => Q false false true | Uni => Q false true false | Unb => no_quals end else no_quals).
(** parse.yy 1186-1320 declaration_specifiers: built from the last specifier to the first. *)
Fixpoint specs_of (e : env) (l : list spec) : option dspecs :=
  match l with
  | [] => None
  | [SQual q] => Some (DS None (add_qual q no_quals))
  | [a] => match spec_type e a with Some (t, c) => Some (new_specs t c) | None => None end
  | a :: r =>
      match specs_of e r with
      | None => None
      | Some d =>
          match a with
          | SQual q => Some (DS (d_base d) (add_qual q (d_quals d)))
          | _ => match spec_type e a, d_base d with
                 | Some (t, _), None => Some (DS (Some t) (d_quals d))
                 | _, _ => None (* Multiple types provided for declaration. *)
                 end
          end
      end
  end.
(** decl.cpp 141-193 lApplyTypeQualifiers. *)
Definition apply_quals (q : quals) (t : ty) : option ty :=
  let t := if qc q then as_const t else t in
  if qu q && qv q then None
  else if qu q then (if is_void t then None else as_uniform t)
  else if qv q then (if is_void t then None else as_varying t)
  else if is_void t then Some t else as_unbound t.
(** 384-470 GetBaseType: int32 (number 0) if no type is given. *)
Definition base_type (e : env) (l : list spec) : option ty :=
  match specs_of e l with
  | None => None
  | Some d => apply_quals (d_quals d) (match d_base d with Some t => t | None => Atom Unb false 0 end)
  end.

(** ** Declarators *)
(** The syntax of declarators, as in the grammar: parse.yy 1921-2057 declarator, direct_declarator; 2059-2092 pointer, reference; 2094-2151
    parameters; 2172-2320 abstract declarators. *)
Inductive decl :=
| Dir (d : direct)
| PtrD (q : quals) (qs : list quals) (d : direct)   (* one pointer and more *)
| RefD (d : direct)
with direct :=
| Id
| Paren (d : decl)
| ArrD (d : direct) (n : nat)
| FunD (d : direct) (ps : params)
with abst :=
| APtr (q : quals) (qs : list quals)
| ADir (d : dabst)
| APtrD (q : quals) (qs : list quals) (d : dabst)
| ARef
| ARefD (d : dabst)
with dabst :=
| AParen (a : abst)
| AArr (n : nat)
| AArrD (d : dabst) (n : nat)
| AFun (ps : params)
| AFunD (d : dabst) (ps : params)
with params :=
| PNil
| PDecl (s : list spec) (d : decl) (r : params)
| PAbs (s : list spec) (a : abst) (r : params)
| PNone (s : list spec) (r : params).

(** decl.h Declarator objects; [DNull]: child is nullptr. *)
Inductive dtor :=
| DNull
| DBase
| DPtr (q : quals) (child : dtor)
| DRef (child : dtor)
| DArr (n : nat) (child : dtor)
| DFun (ps : dparams) (child : dtor)
with dparams :=
| DNil
| DCons (s : list spec) (d : dtor) (r : dparams).

(** The actions.  `pointer`: a chain of objects; declarator: the direct declarator becomes the child of the last one. *)
Fixpoint pointers (q : quals) (qs : list quals) (tail : dtor) : dtor :=
  match qs with [] => DPtr q tail | q' :: r => DPtr q (pointers q' r tail) end.
Fixpoint obj_decl (d : decl) : dtor :=
  match d with
  | Dir d => obj_direct d
  | PtrD q qs d => pointers q qs (obj_direct d)
  | RefD d => DRef (obj_direct d)
  end
with obj_direct (d : direct) : dtor :=
  match d with
  | Id => DBase
  | Paren d => obj_decl d
  | ArrD d n => DArr n (obj_direct d)
  | FunD d ps => DFun (obj_params ps) (obj_direct d)
  end
with obj_abst (a : abst) : dtor :=
  match a with
  | APtr q qs => pointers q qs DNull
  | ADir d => obj_dabst d
  | APtrD _ _ d => DPtr no_quals (obj_dabst d) (* 2178-2187: a new object; $1 is not used *)
  | ARef => DRef DNull
  | ARefD d => DRef (obj_dabst d)
  end
with obj_dabst (d : dabst) : dtor :=
  match d with
  | AParen a => obj_abst a
  | AArr n => DArr n DNull
  | AArrD d n => DArr n (obj_dabst d)
  | AFun ps => DFun (obj_params ps) DNull
  | AFunD d ps => DFun (obj_params ps) (obj_dabst d)
  end
with obj_params (p : params) : dparams :=
  match p with
  | PNil => DNil
  | PDecl s d r => DCons s (obj_decl d) (obj_params r)
  | PAbs s a r => DCons s (obj_abst a) (obj_params r)
  | PNone s r => DCons s DBase (obj_params r) (* decl.cpp 946-951 *)
  end.

(** decl.cpp 834-1088 InitFromType.  [None]: an error.  Parameters 936-1051: unbound variability becomes varying, void is an error, an array
    becomes a uniform pointer to its element, whose dimensions must have sizes. *)
Definition qvar (q : quals) : var := if qu q then Uni else if qv q then Vry else Unb.
Fixpoint sized (t : ty) : bool := match t with Arr n t => negb (n =? 0) && sized t | _ => true end.
Definition parameter (t : ty) : option ty :=
  match resolve Vry t with
  | Void _ => None
  | Arr _ u => if sized u then Some (Ptr Uni false u) else None
  | t => Some t
  end.
Fixpoint init (e : env) (d : dtor) (base : ty) : option ty :=
  match d with
  | DNull => None
  | DBase => Some base
  | DPtr q child =>
      if qu q && qv q then None
      else let t := Ptr (qvar q) (qc q) base in match child with DNull => Some t | _ => init e child t end
  | DRef child =>
      match base with
      | Ref _ _ => None
      | _ => let t := Ref (var_of base) base in match child with DNull => Some t | _ => init e child t end
      end
  | DArr n child =>
      match base with
      | Void _ | Ref _ _ => None
      | _ => let t := Arr n base in match child with DNull => Some t | _ => init e child t end
      end
  | DFun ps child =>
      match init_params e ps, base with
      | None, _ => None
      | _, Fun _ _ => None
      | Some ts, _ => match child with DNull => None (* AssertPos 1062 *) | _ => init e child (Fun (resolve Vry base) ts) end
      end
  end
with init_params (e : env) (ps : dparams) : option (list ty) :=
  match ps with
  | DNil => Some []
  | DCons s d r =>
      match base_type e s with
      | None => None
      | Some b =>
          match init e d b with
          | None => None
          | Some t =>
              match parameter t, init_params e r with
              | Some t, Some ts => Some (t :: ts)
              | _, _ => None
              end
          end
      end
  end.

(** decl.cpp 526-577 InitFromDeclSpecs: what a typedef enters (module.cpp 458-462). *)
Definition written (e : env) (l : list spec) (d : decl) : option ty :=
  match base_type e l with None => None | Some b => init e (obj_decl d) b end.
(** 1122-1164 GetVariableDeclarations and 1166-1188 DeclareFunctions: the type of a variable or function. *)
Definition declared (e : env) (l : list spec) (d : decl) : option ty :=
  match written e l d with
  | None => None
  | Some (Void _) => None
  | Some (Fun r ps) => Some (Fun r ps)
  | Some t => Some (resolve Vry t)
  end.
(** A sequence of typedefs; sym.cpp 244-253: a name is not defined twice. *)
Fixpoint typedefs (l : list (nat * list spec * decl)) (e : env) : option env :=
  match l with
  | [] => Some e
  | (x, s, d) :: r =>
      match lookup e x, written e s d with
      | None, Some t => typedefs r ((x, t) :: e)
      | _, _ => None
      end
  end.

(** ** Members of structures *)
(** parse.yy 1632-1742 specifier_qualifier_list: qualifiers, applied from right to left to the type at the end. *)
Definition apply1 (q : qual) (t : ty) : option ty :=
  match q with
  | QConst => Some (as_const t)
  | QUniform => if is_void t then None else as_uniform t
  | QVarying => if is_void t then None else as_varying t
  end.
Fixpoint member_type (t : ty) (l : list qual) : option ty :=
  match l with [] => Some t | q :: r => match member_type t r with Some t => apply1 q t | None => None end end.
(** decl.cpp 1231-1290 GetStructTypesNamesPositions: specifiers are made of the type. *)
Definition member (e : env) (l : list qual) (a : spec) (d : decl) : option ty :=
  match spec_type e a with
  | None => None
  | Some (t, contained) =>
      match member_type t l with
      | None => None
      | Some t =>
          let q := if is_void t then (if contained && match l with [] => true | _ => false end then Q false true false else no_quals) else match var_of t with Uni => Q false true false | Vry => Q false false true | Unb => no_quals end in
          match apply_quals q t with
          | None => None
          | Some b => match init e (obj_decl d) b with Some (Void _) => None | r => r end
          end
      end
  end.

(** ** Enumerators *)
(** parse.yy 1861-1893 enumerator, 3812-3853 lFinalizeEnumeratorSymbols: the value given, or one more than that of the enumerator before,
    in 32 bits without a sign. *)
Fixpoint enumerators (next : Z) (l : list (option Z)) : list Z :=
  match l with
  | [] => []
  | Some v :: r => (v mod 2 ^ 32)%Z :: enumerators ((v + 1) mod 2 ^ 32)%Z r
  | None :: r => next :: enumerators ((next + 1) mod 2 ^ 32)%Z r
  end.
