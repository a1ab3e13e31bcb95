(** What a declaration means, after the C standard ("declaration mirrors use") and docs/ispc.rst 2945-3010, 3180-3233: everything is varying
    by default, what a pointer points to is uniform by default. *)
From Coq Require Import ZArith List Bool.
From Verif Require Import DeclModel.
Import ListNotations.

(** Types as the user sees them: nothing is left open.  The first [bool] of a type: it is varying; the second: it is const. *)
Inductive cty :=
| CAtom (varying c : bool) (b : nat)
| CVoid (c : bool)
| CPtr (varying c : bool) (t : cty)
| CArr (n : nat) (t : cty)
| CRef (t : cty)
| CFun (r : cty) (ps : list cty).

(** A type of the compiler stands for a type of the user if nothing is unbound. *)
Definition view_var (v : var) (d : bool) : Prop := match v with Unb => False | Uni => d = false | Vry => d = true end.
Inductive stands_for : ty -> cty -> Prop :=
| s_atom v d c b : view_var v d -> stands_for (Atom v c b) (CAtom d c b)
| s_void c : stands_for (Void c) (CVoid c)
| s_ptr v d c t u : view_var v d -> stands_for t u -> stands_for (Ptr v c t) (CPtr d c u)
| s_arr n t u : stands_for t u -> stands_for (Arr n t) (CArr n u)
| s_ref v t u : stands_for t u -> stands_for (Ref v t) (CRef u)
| s_fun r s ps us : stands_for r s -> Forall2 stands_for ps us -> stands_for (Fun r ps) (CFun s us).

(** The documented defaults, for a type as it was written, in a place where the default is [d] (varying or not). *)
Definition or_default (d : bool) (v : var) : bool := match v with Unb => d | Uni => false | Vry => true end.
Inductive completes : bool -> ty -> cty -> Prop :=
| c_atom d v c b : completes d (Atom v c b) (CAtom (or_default d v) c b)
| c_void d c : completes d (Void c) (CVoid c)
| c_ptr d v c t u : completes false t u -> completes d (Ptr v c t) (CPtr (or_default d v) c u)
| c_arr d n t u : completes d t u -> completes d (Arr n t) (CArr n u)
| c_ref d v t u : completes d t u -> completes d (Ref v t) (CRef u)
| c_fun d r s ps us : completes true r s -> Forall2 (completes true) ps us -> completes d (Fun r ps) (CFun s us).

(** The specifiers, in any order: at most one type (int if there is none), const, and uniform or varying, which take the place of the
    default and must not contradict a variability that the name of a typedef brings along. *)
Definition types_in (l : list spec) : list spec := filter (fun a => match a with SQual _ => false | _ => true end) l.
Definition type_named (e : env) (l : list spec) (t : ty) : Prop :=
  match types_in l with
  | [] => t = Atom Unb false 0
  | [SBuiltin b] => t = Atom Unb false b
  | [SVoid] => t = Void false
  | [SName x] => lookup e x = Some t
  | _ => False
  end.
(** the variability of the innermost element of arrays *)
Fixpoint outer (t : ty) : var := match t with Atom v _ _ | Ptr v _ _ => v | Arr _ t | Ref _ t => outer t | Void _ | Fun _ _ => Uni end.
Fixpoint constant (t : cty) : cty :=
  match t with
  | CAtom d _ b => CAtom d true b | CVoid _ => CVoid true | CPtr d _ t => CPtr d true t
  | CArr n t => CArr n (constant t) | CRef t => CRef (constant t) | CFun r ps => CFun r ps
  end.
Definition base_is (e : env) (l : list spec) (d : bool) (s : cty) : Prop :=
  exists t u, type_named e l t /\ ~ (In (SQual QUniform) l /\ In (SQual QVarying) l) /\
    (In (SQual QUniform) l -> is_void t = false /\ outer t <> Vry) /\
    (In (SQual QVarying) l -> is_void t = false /\ outer t <> Uni) /\
    (forall d', (In (SQual QUniform) l -> d' = false) -> (In (SQual QVarying) l -> d' = true) ->
       (~ In (SQual QUniform) l -> ~ In (SQual QVarying) l -> d' = d) -> completes d' t u) /\
    (In (SQual QConst) l -> s = constant u) /\ (~ In (SQual QConst) l -> s = u).

(** Types that may be declared: no void, no arrays of void or of references, no references to references, no functions that return a
    function. *)
Inductive legal : cty -> Prop :=
| l_atom d c b : legal (CAtom d c b)
| l_void c : legal (CVoid c)
| l_ptr d c t : legal t -> legal (CPtr d c t)
| l_arr n t : legal t -> (forall c, t <> CVoid c) -> (forall u, t <> CRef u) -> legal (CArr n t)
| l_ref t : legal t -> (forall u, t <> CRef u) -> legal (CRef t)
| l_fun r ps : legal r -> (forall s us, r <> CFun s us) -> legal (CFun r ps).

(** An abstract declarator is a declarator without the name; its type is that of the name that could be put into it. *)
Fixpoint named (a : abst) : decl :=
  match a with
  | APtr q qs => PtrD q qs Id
  | ADir d => Dir (named_d d)
  | APtrD q qs d => PtrD q qs (named_d d)
  | ARef => RefD Id
  | ARefD d => RefD (named_d d)
  end
with named_d (d : dabst) : direct :=
  match d with
  | AParen a => Paren (named a)
  | AArr n => ArrD Id n
  | AArrD d n => ArrD (named_d d) n
  | AFun ps => FunD Id ps
  | AFunD d ps => FunD (named_d d) ps
  end.

(** Declaration mirrors use: [reads D s d s' d'] says that if what is declared has the type s (with the default d for it), then the
    declarator D, read as an expression, has the type s' (with the default d').  Then s' must be the type that the specifiers give. *)
Definition consistent (q : quals) : Prop := ~ (qu q = true /\ qv q = true).
Definition adjust (t u : cty) : Prop := match t with CArr _ t => u = CPtr false false t | _ => u = t end.
Fixpoint all_sized (t : cty) : Prop := match t with CArr n t => n <> 0 /\ all_sized t | _ => True end.
Inductive reads (e : env) : decl -> cty -> bool -> cty -> bool -> Prop :=
| r_dir D s d s' d' : reads_direct e D s d s' d' -> reads e (Dir D) s d s' d'
| r_ptr q D s d s' d' : consistent q -> reads_direct e D s d (CPtr (or_default d' (qvar q)) (qc q) s') d' -> reads e (PtrD q [] D) s d s' false
| r_ptrs q q' qs D s d s' d' : consistent q -> reads e (PtrD q' qs D) s d (CPtr (or_default d' (qvar q)) (qc q) s') d' ->
    reads e (PtrD q (q' :: qs) D) s d s' false
| r_ref D s d s' d' : reads_direct e D s d (CRef s') d' -> reads e (RefD D) s d s' d'
with reads_direct (e : env) : direct -> cty -> bool -> cty -> bool -> Prop :=
| r_id s d : reads_direct e Id s d s d
| r_paren D s d s' d' : reads e D s d s' d' -> reads_direct e (Paren D) s d s' d'
| r_arr D n s d s' d' : reads_direct e D s d (CArr n s') d' -> reads_direct e (ArrD D n) s d s' d'
| r_fun D ps s d s' us d' : reads_direct e D s d (CFun s' us) d' -> reads_params e ps us -> reads_direct e (FunD D ps) s d s' true
with reads_params (e : env) : params -> list cty -> Prop :=
| r_nil : reads_params e PNil []
| r_cons l D r u us : reads_param e l D u -> reads_params e r us -> reads_params e (PDecl l D r) (u :: us)
| r_abs l a r u us : reads_param e l (named a) u -> reads_params e r us -> reads_params e (PAbs l a r) (u :: us)
| r_none l r u us : reads_param e l (Dir Id) u -> reads_params e r us -> reads_params e (PNone l r) (u :: us)
(* a parameter: not void; an array is a uniform pointer to its elements, whose dimensions must have sizes *)
with reads_param (e : env) : list spec -> decl -> cty -> Prop :=
| r_param l D s s' d' u : reads e D s true s' d' -> base_is e l d' s' -> legal s -> (forall c, s <> CVoid c) ->
    (forall n t, s = CArr n t -> all_sized t) -> adjust s u -> reads_param e l D u.

(** [s] is the type the declaration gives. *)
Definition declares (e : env) (l : list spec) (D : decl) (s : cty) : Prop := exists s' d', reads e D s true s' d' /\ base_is e l d' s'.

(** Enumerators: the value given, otherwise 0 for the first and one more than the value before for the others. *)
Definition enumerator_ok (l : list (option Z)) (vs : list Z) (k : nat) : Prop :=
  match nth_error l k with
  | None => nth_error vs k = None
  | Some (Some v) => nth_error vs k = Some (v mod 2 ^ 32)%Z
  | Some None => match k with
                 | O => nth_error vs k = Some 0%Z
                 | S j => exists v, nth_error vs j = Some v /\ nth_error vs k = Some ((v + 1) mod 2 ^ 32)%Z
                 end
  end.

Definition not_ref (t : ty) : Prop := forall v u, t <> Ref v u.
Definition not_void (t : ty) : Prop := forall c, t <> Void c.
(** What the theorems assume of the names of typedefs among the specifiers: they do not stand for void or a reference, and those that are
    uniform or varying stand last (C74_typedef_refuted, C74_void_refuted). *)
Definition ok_specs (e : env) (l : list spec) : Prop :=
  l <> [] /\ has_void e = false /\
  forall x t, In (SName x) l -> lookup e x = Some t -> not_void t /\ not_ref t /\ (outer t = Unb \/ exists l', l = l' ++ [SName x]).
(** What the theorems assume of declarators: the abstract declarators of parameters are not among those the compiler gets wrong. *)
Fixpoint kept (e : env) (d : decl) : Prop :=
  match d with Dir d => kept_direct e d | PtrD _ _ d => kept_direct e d | RefD d => kept_direct e d end
with kept_direct (e : env) (d : direct) : Prop :=
  match d with Id => True | Paren d => kept e d | ArrD d _ => kept_direct e d | FunD d ps => kept_direct e d /\ kept_params e ps end
with kept_abst (e : env) (a : abst) : Prop :=
  match a with
  | APtr _ _ => True
  | ADir d => kept_dabst e d
  | APtrD q qs d => q = no_quals /\ qs = [] /\ kept_dabst e d (* the others are dropped: C74_abstract_refuted *)
  | ARef => True
  | ARefD d => kept_dabst e d
  end
with kept_dabst (e : env) (d : dabst) : Prop :=
  match d with
  | AParen a => kept_abst e a
  | AArr _ => True
  | AArrD d _ => kept_dabst e d
  | AFun _ => False (* an assertion fails: C74_function_refuted *)
  | AFunD d ps => kept_dabst e d /\ kept_params e ps
  end
with kept_params (e : env) (p : params) : Prop :=
  match p with
  | PNil => True
  | PDecl s d r => ok_specs e s /\ kept e d /\ kept_params e r
  | PAbs s a r => ok_specs e s /\ kept_abst e a /\ kept_params e r
  | PNone s r => ok_specs e s /\ kept_params e r
  end.
