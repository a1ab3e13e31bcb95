(** const: the rules by which the type checker (src/expr.cpp, src/type.cpp, src/stmt.cpp) decides which expressions may be written
    through, which conversions of pointers and references drop a const, and what the accepted programs do to memory.

    Simplifications: variability (uniform, varying), SOA and slices, address spaces, enumerations, short vectors, function pointers,
    templates and overloading are left out; all arithmetic types are one type; functions return no references; explicit casts,
    [new] and [delete] are left out; conditions may be true or false at will, and an arithmetic assignment may store any number; the
    storage of a variable is never used again.  A program that goes outside the bounds of an array, or uses a pointer that was not
    set, does not continue ([eval] gives [None]). *)
From Coq Require Import ZArith List Bool Arith.
Import ListNotations.

(** src/type.h: AtomicType, PointerType, ArrayType, StructType (by its number in the list of definitions) and void; the flag is isConst. *)
Inductive ty :=
| TInt (c : bool)
| TPtr (c : bool) (t : ty)
| TArr (n : nat) (t : ty)
| TStruct (c : bool) (s : nat)
| TVoid (c : bool).

(** type.h 124: IsConstType; the flag of an array is the element's (type.cpp 1435-1460, 1323-1332). *)
Fixpoint is_const (t : ty) : bool :=
  match t with TInt c => c | TPtr c _ => c | TArr _ t => is_const t | TStruct c _ => c | TVoid c => c end.
(** type.cpp 292-302, 1117-1124, 1415-1421: GetAsConstType. *)
Fixpoint as_const (t : ty) : ty :=
  match t with
  | TInt _ => TInt true | TPtr _ t => TPtr true t | TArr n t => TArr n (as_const t) | TStruct _ s => TStruct true s | TVoid _ => TVoid true
  end.
(** type.cpp 304-314, 1125-1131, 1423-1429: GetAsNonConstType. *)
Fixpoint as_nonconst (t : ty) : ty :=
  match t with
  | TInt _ => TInt false | TPtr _ t => TPtr false t | TArr n t => TArr n (as_nonconst t) | TStruct _ s => TStruct false s
  | TVoid _ => TVoid false
  end.
Definition is_void (t : ty) : bool := match t with TVoid _ => true | _ => false end.
Definition is_arr (t : ty) : bool := match t with TArr _ _ => true | _ => false end.
Definition is_ptr (t : ty) : bool := match t with TPtr _ _ => true | _ => false end.

(** type.cpp 3386-3480: lCheckTypeEquality.  [ign]: ignoreConst. *)
Fixpoint ty_eqb (ign : bool) (a b : ty) : bool :=
  (ign || Bool.eqb (is_const a) (is_const b)) &&
  match a, b with
  | TInt _, TInt _ => true
  | TPtr _ t, TPtr _ u => ty_eqb ign t u
  | TArr n t, TArr m u => (n =? m) && ty_eqb ign t u
  | TStruct _ s, TStruct _ r => s =? r
  | TVoid _, TVoid _ => true
  | _, _ => false
  end.

(** A structure definition: the types of its members (StructType::elementTypes). *)
Definition structs := list (list ty).

(** The type of an element or a member: type.cpp 2195-2216 (StructType::GetElementType: the members of a const structure are const),
    SequentialType::GetElementType. *)
Definition sub (D : structs) (t : ty) (i : nat) : option ty :=
  match t with
  | TArr n t => if i <? n then Some t else None
  | TStruct c s =>
      match nth_error D s with
      | Some ms => match nth_error ms i with Some m => Some (if c then as_const m else m) | None => None end
      | None => None
      end
  | _ => None
  end.
Fixpoint type_at (D : structs) (t : ty) (p : list nat) : option ty :=
  match p with
  | [] => Some t
  | i :: p => match sub D t i with Some t => type_at D t p | None => None end
  end.

(** expr.cpp 3524-3553: lCheckForConstStructMember.  The depth stands for the recursion, which ends as structures cannot contain
    themselves. *)
Fixpoint has_const (D : structs) (depth s : nat) : bool :=
  match depth with
  | 0 => true
  | S depth =>
      match nth_error D s with
      | Some ms => existsb (fun t => is_const t || match t with TStruct _ r => has_const D depth r | _ => false end) ms
      | None => true
      end
  end.

(** The outcome of a conversion: an error, no message, or the warning "discards const qualifier". *)
Inductive verdict := No | Yes | Warn.

(** expr.cpp 168-605: lDoTypeConv between types that are not references.  [nul]: the expression is NULL; [zero]: it is a constant 0
    (lIsAllIntZeros). *)
Definition conv (nul zero : bool) (from to : ty) : verdict :=
  if ty_eqb false to from then Yes
  else if is_void from || is_void to then No
  else match from, to with
  | TArr _ e, TPtr c b =>                                                  (* 259-284 *)
      if is_void b then Yes
      else if ty_eqb false (TPtr c b) (TPtr c (if is_const b then as_const e else e)) then Yes else No
  | TPtr _ fb, TPtr _ tb =>                                                (* 318-391 *)
      if is_void tb then (if is_const fb && negb (is_const tb) then No else Yes)
      else if is_void fb && nul then Yes
      else if negb (ty_eqb false fb tb) && negb (ty_eqb false (as_const fb) tb)
           then (if ty_eqb true fb tb then Warn else No)
           else Yes
  | TPtr _ _, _ => No                                                      (* 328-336; 324: to an array, see [check_leaf] *)
  | TInt _, TPtr _ _ => if zero then Yes else No                           (* 393-405 *)
  | _, _ =>
      if ty_eqb true to from && is_const to && negb (is_const from) then Yes       (* 422-425 *)
      else if ty_eqb false to (as_nonconst from) then Yes                  (* 475-478 *)
      else match from, to with
      | TArr _ e, TArr _ e' => if ty_eqb false e' e || ty_eqb false e' (as_const e) then Yes else No     (* 482-503 *)
      | TStruct _ s, TStruct _ r => if s =? r then Yes else No             (* 519-531 *)
      | TInt _, TInt _ => Yes                                              (* 573-604 *)
      | _, _ => No
      end
  end.

(** The same function where [to] is the target of a reference: [isref]: the expression is itself a reference with target [from], and
    otherwise a reference to it is made first (462-474) -- which a pointer does not reach (328-336). *)
Definition conv_ref (isref : bool) (from to : ty) : verdict :=
  if isref && ty_eqb false to from then Yes
  else if is_void from then No
  else if negb isref && is_ptr from then No
  else if ty_eqb false to from then Yes                                                              (* 180 *)
  else if ty_eqb true to from && is_const to && negb (is_const from) then Yes                        (* 422-425 *)
  else if ty_eqb false to (as_const from) then Yes                                                   (* 428-433 *)
  else match from, to with
  | TArr _ e, TArr _ e' => if ty_eqb false e e' then Yes else No                                     (* 435-440 *)
  | _, _ => No
  end.

(** type.cpp 3214-3330: MoreGeneralType, for the types above. *)
Definition more_general (t0 t1 : ty) : option ty :=
  if ty_eqb false t0 t1 then Some t0
  else if ty_eqb true t0 t1 then Some (as_nonconst t0)
  else match t0, t1 with
  | TPtr _ b0, TPtr _ b1 => if is_void b0 then Some t1 else if is_void b1 then Some t0 else None
  | _, _ => None
  end.

(** Expressions (src/expr.h: ConstExpr, NullPointerExpr, SymbolExpr, PtrDerefExpr, AddressOfExpr, IndexExpr, StructMemberExpr with "."
    and with "->", BinaryExpr with a pointer and a number, SelectExpr).  Variables are numbered from the outermost. *)
Inductive exp :=
| Lit (z : Z)
| Null
| Var (x : nat)
| Deref (e : exp)
| Addr (e : exp)
| Index (e i : exp)
| Member (e : exp) (f : nat)
| Arrow (e : exp) (f : nat)
| Plus (e i : exp)
| Cond (a b : exp) (test : bool).

Definition is_null (e : exp) : bool := match e with Null => true | _ => false end.
Definition is_zero (e : exp) : bool := match e with Lit 0 => true | _ => false end.
Definition conv_exp (e : exp) (from to : ty) : verdict := conv (is_null e) (is_zero e) from to.

(** What a variable is: a reference or an object, and its type (the target's, for a reference). *)
Definition vars := list (bool * ty).
Definition is_ref (G : vars) (e : exp) : bool :=
  match e with Var x => match nth_error G x with Some (r, _) => r | None => false end | _ => false end.

(** What the type checker finds out about an expression: its type (GetType, after RefDerefExpr), whether it has an lvalue type
    (GetLValueType), and whether there was a warning. *)
Record info := { i_ty : ty; i_lv : bool; i_warn : bool }.
Definition warns (v : verdict) : bool := match v with Warn => true | _ => false end.
Definition ok (v : verdict) : bool := match v with No => false | _ => true end.

(** An array where a pointer to its elements is needed (expr.cpp 4051-4064; 2845-2900 for "+"). *)
Definition decay (t : ty) : ty := match t with TArr _ e => TPtr false e | _ => t end.

(** expr.cpp: NullPointerExpr::GetTypeImpl; SymbolExpr 9089-9145; PtrDerefExpr 8562-8605; AddressOfExpr 8745-8835; IndexExpr 5065-5112,
    5258-5320, 5336-5366; StructMemberExpr 5494-5600 and MemberExpr::create 5894-5990; BinaryExpr 2830-2910; SelectExpr 4037-4093.
    An array that has no lvalue is not indexed in the model. *)
Fixpoint typeof (D : structs) (G : vars) (e : exp) : option info :=
  match e with
  | Lit _ => Some {| i_ty := TInt true; i_lv := false; i_warn := false |}
  | Null => Some {| i_ty := TPtr false (TVoid false); i_lv := false; i_warn := false |}
  | Var x => match nth_error G x with Some (_, t) => Some {| i_ty := t; i_lv := true; i_warn := false |} | None => None end
  | Deref e =>
      match typeof D G e with
      | Some {| i_ty := TPtr _ b; i_warn := w |} => if is_void b then None else Some {| i_ty := b; i_lv := true; i_warn := w |}
      | _ => None
      end
  | Addr e =>
      match typeof D G e with
      | Some {| i_ty := t; i_lv := true; i_warn := w |} => Some {| i_ty := TPtr false t; i_lv := false; i_warn := w |}
      | _ => None
      end
  | Index e i =>
      match typeof D G e, typeof D G i with
      | Some {| i_ty := TPtr _ b; i_warn := w |}, Some {| i_ty := TInt _; i_warn := v |} =>
          if is_void b then None else Some {| i_ty := b; i_lv := true; i_warn := w || v |}
      | Some {| i_ty := TArr _ b; i_lv := true; i_warn := w |}, Some {| i_ty := TInt _; i_warn := v |} =>
          Some {| i_ty := b; i_lv := true; i_warn := w || v |}
      | _, _ => None
      end
  | Member e f =>
      match typeof D G e with
      | Some {| i_ty := TStruct c s; i_lv := l; i_warn := w |} =>
          match sub D (TStruct c s) f with Some t => Some {| i_ty := t; i_lv := l; i_warn := w |} | None => None end
      | _ => None
      end
  | Arrow e f =>
      match typeof D G e with
      | Some {| i_ty := TPtr _ (TStruct c s); i_warn := w |} =>
          match sub D (TStruct c s) f with Some t => Some {| i_ty := t; i_lv := true; i_warn := w |} | None => None end
      | _ => None
      end
  | Plus e i =>
      match typeof D G e, typeof D G i with
      | Some {| i_ty := TPtr c b; i_warn := w |}, Some {| i_ty := TInt _; i_warn := v |} =>
          if is_void b then None else Some {| i_ty := TPtr c b; i_lv := false; i_warn := w || v |}
      | Some {| i_ty := TArr _ b; i_lv := true; i_warn := w |}, Some {| i_ty := TInt _; i_warn := v |} =>
          Some {| i_ty := TPtr false b; i_lv := false; i_warn := w || v |}
      | _, _ => None
      end
  | Cond a b _ =>
      match typeof D G a, typeof D G b with
      | Some {| i_ty := ta; i_lv := la; i_warn := wa |}, Some {| i_ty := tb; i_lv := lb; i_warn := wb |} =>
          if (is_arr ta && negb la) || (is_arr tb && negb lb) then None
          else match more_general (decay ta) (decay tb) with
          | Some t =>
              let va := conv_exp a (decay ta) t in
              let vb := conv_exp b (decay tb) t in
              if ok va && ok vb then Some {| i_ty := t; i_lv := false; i_warn := wa || wb || warns va || warns vb |} else None
          | None => None
          end
      | _, _ => None
      end
  end.

(** Memory: blocks, one for each variable, and in each a value for every scalar, found by the path to it (array indices and member
    numbers).  With each block, its declared type and its value when it was made. *)
Definition addr := (nat * list nat)%type.
Inductive val := VInt (z : Z) | VPtr (a : addr) | VNull | VUnset.
Definition value := list nat -> val.
Record state := { blocks : list (ty * value); mem : nat -> list nat -> val }.

Definition addr_ty (D : structs) (st : state) (a : addr) : option ty :=
  match nth_error (blocks st) (fst a) with Some (t, _) => type_at D t (snd a) | None => None end.
Fixpoint strip (p q : list nat) : option (list nat) :=
  match p, q with
  | [], _ => Some q
  | i :: p, j :: q => if i =? j then strip p q else None
  | _ :: _, [] => None
  end.
Definition load (st : state) (a : addr) : value := fun q => mem st (fst a) (snd a ++ q).
Definition store (st : state) (a : addr) (v : value) : state :=
  {| blocks := blocks st;
     mem := fun b p => if b =? fst a then match strip (snd a) p with Some q => v q | None => mem st b p end else mem st b p |}.
Definition alloc (st : state) (t : ty) (v : value) : state :=
  {| blocks := blocks st ++ [(t, v)]; mem := fun b p => if b =? length (blocks st) then v p else mem st b p |}.
Definition fresh (st : state) : addr := (length (blocks st), []).

Inductive res := RL (a : addr) | RV (v : value).
Definition value_of (st : state) (r : res) : value := match r with RL a => load st a | RV v => v end.
Definition scal (v : val) : value := fun _ => v.
Definition checked (D : structs) (st : state) (a : addr) : option addr :=
  match addr_ty D st a with Some _ => Some a | None => None end.
Definition elem (D : structs) (st : state) (a : addr) (z : Z) : option addr :=
  if (0 <=? z)%Z then checked D st (fst a, snd a ++ [Z.to_nat z]) else None.
(** Moving a pointer inside the array it points into. *)
Definition move (D : structs) (st : state) (a : addr) (z : Z) : option addr :=
  if (z =? 0)%Z then Some a
  else match snd a with
  | [] => None
  | _ =>
      match addr_ty D st (fst a, removelast (snd a)) with
      | Some (TArr _ _) => elem D st (fst a, removelast (snd a)) (Z.of_nat (last (snd a) 0%nat) + z)%Z
      | _ => None
      end
  end.

(** The value of an expression after its conversion: TypeCastExpr::GetValue (an array to a pointer: the address of its first element). *)
Definition coerce (D : structs) (st : state) (from to : ty) (r : res) : option value :=
  match from, to with
  | TArr _ _, TPtr _ _ => match r with RL a => match elem D st a 0%Z with Some a => Some (scal (VPtr a)) | None => None end | RV _ => None end
  | TInt _, TPtr _ _ => Some (scal VNull)
  | _, _ => Some (value_of st r)
  end.

(** GetValue and GetLValue. *)
Fixpoint eval (D : structs) (G : vars) (env : list addr) (st : state) (e : exp) : option res :=
  match e with
  | Lit z => Some (RV (scal (VInt z)))
  | Null => Some (RV (scal VNull))
  | Var x => match nth_error env x with Some a => Some (RL a) | None => None end
  | Deref e =>
      match eval D G env st e with
      | Some r => match value_of st r [] with VPtr a => Some (RL a) | _ => None end
      | None => None
      end
  | Addr e => match eval D G env st e with Some (RL a) => Some (RV (scal (VPtr a))) | _ => None end
  | Index e i =>
      match typeof D G e, eval D G env st e, eval D G env st i with
      | Some te, Some r, Some ri =>
          match value_of st ri [] with
          | VInt z =>
              match i_ty te, r with
              | TArr _ _, RL a => match elem D st a z with Some a => Some (RL a) | None => None end
              | TPtr _ _, _ =>
                  match value_of st r [] with
                  | VPtr a => match move D st a z with Some a => Some (RL a) | None => None end
                  | _ => None
                  end
              | _, _ => None
              end
          | _ => None
          end
      | _, _, _ => None
      end
  | Member e f =>
      match eval D G env st e with
      | Some (RL a) => Some (RL (fst a, snd a ++ [f]))
      | Some (RV v) => Some (RV (fun q => v (f :: q)))
      | None => None
      end
  | Arrow e f =>
      match eval D G env st e with
      | Some r => match value_of st r [] with VPtr a => Some (RL (fst a, snd a ++ [f])) | _ => None end
      | None => None
      end
  | Plus e i =>
      match typeof D G e, eval D G env st e, eval D G env st i with
      | Some te, Some r, Some ri =>
          match coerce D st (i_ty te) (decay (i_ty te)) r, value_of st ri [] with
          | Some v, VInt z =>
              match v [] with
              | VPtr a => match move D st a z with Some a => Some (RV (scal (VPtr a))) | None => None end
              | _ => None
              end
          | _, _ => None
          end
      | _, _, _ => None
      end
  | Cond a b test =>
      match typeof D G (Cond a b test), (if test then typeof D G a else typeof D G b),
            (if test then eval D G env st a else eval D G env st b) with
      | Some t, Some te, Some r =>
          match coerce D st (i_ty te) (decay (i_ty te)) r with
          | Some v => match coerce D st (decay (i_ty te)) (i_ty t) (RV v) with Some v => Some (RV v) | None => None end
          | None => None
          end
      | _, _, _ => None
      end
  end.

(** Statements.  An initializer is the list of its expressions, each with the path to what it initialises ([] for "= e").
    [Update]: "++", "--" and the compound assignments.  [Fill]: memset (stdlib.ispc 828-880) of an object by a void pointer to it. *)
Definition init := list (list nat * exp).
Inductive cmd :=
| Skip
| Seq (c1 c2 : cmd)
| Let (t : ty) (i : init) (c : cmd)
| LetRef (t : ty) (e : exp) (c : cmd)
| Assign (l r : exp)
| Update (l i : exp)
| If (c1 c2 : cmd)
| While (c : cmd)
| Call (f : nat) (args : list exp)
| LetCall (t : ty) (f : nat) (args : list exp) (c : cmd)
| Ret (e : exp)
| Fill (e : exp) (z : Z).

(** A function: its parameters (reference or object, and type), return type and body.  A program: the definitions of its structures, its
    global variables, its functions; it starts with function 0. *)
Record func := { params : vars; ret : ty; body : cmd }.
Record prog := { defs : structs; globals : list (ty * init); funcs : list func }.
Definition gvars (P : prog) : vars := map (fun g => (false, fst g)) (globals P).

Definition both (a b : option bool) : option bool := match a, b with Some x, Some y => Some (x || y) | _, _ => None end.

(** stmt.cpp 307-349 lCheckInit (an array is not initialised by an expression) and expr.cpp 739-780 InitSymbol; [s] the type of the part
    that is initialised. *)
Definition check_leaf (D : structs) (G : vars) (s : ty) (e : exp) : option bool :=
  match typeof D G e with
  | Some te =>
      let v := conv_exp e (i_ty te) s in
      if negb (is_arr s) && negb (is_void s) && (negb (is_arr (i_ty te)) || i_lv te) && ok v then Some (i_warn te || warns v) else None
  | None => None
  end.
Fixpoint check_init (D : structs) (G : vars) (t : ty) (i : init) : option bool :=
  match i with
  | [] => Some false
  | (p, e) :: i =>
      match type_at D t p with
      | Some s => both (check_leaf D G s e) (check_init D G t i)
      | None => None
      end
  end.
(** stmt.cpp 252-257: a const variable needs an initializer. *)
Definition check_var (D : structs) (G : vars) (t : ty) (i : init) : option bool :=
  if is_void t || (is_const t && match i with [] => true | _ => false end) then None else check_init D G t i.
(** expr.cpp 4206-4229: the arguments of a call. *)
Definition check_arg (D : structs) (G : vars) (p : bool * ty) (e : exp) : option bool :=
  match typeof D G e with
  | Some te =>
      if fst p then
        let v := conv_ref (is_ref G e) (i_ty te) (snd p) in
        if (negb (is_arr (i_ty te)) || i_lv te) && ok v then Some (i_warn te || warns v) else None
      else check_leaf D G (snd p) e
  | None => None
  end.
Fixpoint check_args (D : structs) (G : vars) (ps : vars) (es : list exp) : option bool :=
  match ps, es with
  | [], [] => Some false
  | p :: ps, e :: es => both (check_arg D G p e) (check_args D G ps es)
  | _, _ => None
  end.

(** The checks on statements: DeclStmt (stmt.cpp 145-180, 252-257, 381-406), AssignExpr::TypeCheck (expr.cpp 3557-3655), UnaryExpr::TypeCheck
    (1508-1562), calls, return (ctx.cpp 1284-1312).  [Some true]: accepted with a warning. *)
Fixpoint check (P : prog) (rt : ty) (G : vars) (c : cmd) : option bool :=
  let D := defs P in
  match c with
  | Skip => Some false
  | Seq c1 c2 => both (check P rt G c1) (check P rt G c2)
  | Let t i c => both (check_var D G t i) (check P rt (G ++ [(false, t)]) c)
  | LetRef t e c =>
      match typeof D G e with
      | Some te =>
          let v := conv_ref (is_ref G e) (i_ty te) t in
          if i_lv te && ok v then both (Some (i_warn te || warns v)) (check P rt (G ++ [(true, t)]) c) else None
      | None => None
      end
  | Assign l r =>
      match typeof D G l with
      | Some tl =>
          if negb (i_lv tl) || is_const (i_ty tl) then None
          else match i_ty tl with
          | TStruct _ s => if has_const D (S (length D)) s then None else both (Some (i_warn tl)) (check_leaf D G (i_ty tl) r)
          | t => both (Some (i_warn tl)) (check_leaf D G t r)                 (* an array: 3617-3619, in [check_leaf] *)
          end
      | None => None
      end
  | Update l i =>
      match typeof D G l, typeof D G i with
      | Some tl, Some ti =>
          if negb (i_lv tl) || is_const (i_ty tl) then None
          else match i_ty tl, i_ty ti with
          | TInt _, TInt _ => Some (i_warn tl || i_warn ti)
          | TPtr _ b, TInt _ => if is_void b then None else Some (i_warn tl || i_warn ti)
          | _, _ => None
          end
      | _, _ => None
      end
  | If c1 c2 => both (check P rt G c1) (check P rt G c2)
  | While c => check P rt G c
  | Call f es =>
      match nth_error (funcs P) f with Some fn => check_args D G (params fn) es | None => None end
  | LetCall t f es c =>
      match nth_error (funcs P) f with
      | Some fn =>
          if is_void (ret fn) then None
          else
            let v := conv false false (ret fn) t in
            if negb (is_arr t) && ok v
            then both (both (check_args D G (params fn) es) (Some (warns v))) (check P rt (G ++ [(false, t)]) c) else None
      | None => None
      end
  | Ret e => check_leaf D G rt e
  | Fill e _ => check_leaf D G (TPtr false (TVoid false)) e
  end.

Fixpoint check_globals (D : structs) (G : vars) (gs : list (ty * init)) : option bool :=
  match gs with
  | [] => Some false
  | (t, i) :: gs => both (check_var D G t i) (check_globals D (G ++ [(false, t)]) gs)
  end.
(** A function returns no array (type.cpp 2640 ff., decl.cpp). *)
Definition check_func (P : prog) (f : func) : option bool :=
  if is_arr (ret f) || existsb (fun p => is_arr (snd p) && negb (fst p) || is_void (snd p)) (params f) then None
  else check P (ret f) (gvars P ++ params f) (body f).
Definition check_prog (P : prog) : option bool :=
  both (check_globals (defs P) [] (globals P)) (fold_right (fun f => both (check_func P f)) (Some false) (funcs P)).

(** What the statements do. *)
Definition put (v : value) (p : list nat) (x : value) : value := fun q => match strip p q with Some r => x r | None => v q end.
Fixpoint init_value (D : structs) (G : vars) (env : list addr) (st : state) (t : ty) (i : init) (v : value) : option value :=
  match i with
  | [] => Some v
  | (p, e) :: i =>
      match type_at D t p, typeof D G e, eval D G env st e with
      | Some s, Some te, Some r =>
          match coerce D st (i_ty te) s r with Some x => init_value D G env st t i (put v p x) | None => None end
      | _, _, _ => None
      end
  end.
Definition make (D : structs) (G : vars) (env : list addr) (st : state) (t : ty) (i : init) : option state :=
  match init_value D G env st t i (scal VUnset) with Some v => Some (alloc st t v) | None => None end.
Definition bind (D : structs) (G : vars) (env : list addr) (st : state) (p : bool * ty) (e : exp) : option (state * addr) :=
  match typeof D G e, eval D G env st e with
  | Some te, Some r =>
      if fst p then
        match r with
        | RL a => Some (st, a)
        | RV v => Some (alloc st (i_ty te) v, fresh st)                        (* 8404-8424: a temporary *)
        end
      else match coerce D st (i_ty te) (snd p) r with Some v => Some (alloc st (snd p) v, fresh st) | None => None end
  | _, _ => None
  end.
Fixpoint bind_all (D : structs) (G : vars) (env : list addr) (st : state) (ps : vars) (es : list exp) : option (state * list addr) :=
  match ps, es with
  | [], [] => Some (st, [])
  | p :: ps, e :: es =>
      match bind D G env st p e with
      | Some (st, a) => match bind_all D G env st ps es with Some (st, l) => Some (st, a :: l) | None => None end
      | None => None
      end
  | _, _ => None
  end.

(** Executions, up to any point: [Stopped] is an execution looked at before its end. *)
Inductive outcome := Next | Stopped | Returned (v : value).
Section Exec.
Variable P : prog.
Let D := defs P.
Inductive exec : ty -> vars -> list addr -> state -> cmd -> state -> outcome -> Prop :=
| X_stop rt G env st c : exec rt G env st c st Stopped
| X_skip rt G env st : exec rt G env st Skip st Next
| X_seq rt G env st c1 c2 st1 st2 o : exec rt G env st c1 st1 Next -> exec rt G env st1 c2 st2 o -> exec rt G env st (Seq c1 c2) st2 o
| X_seq_end rt G env st c1 c2 st1 o : exec rt G env st c1 st1 o -> o <> Next -> exec rt G env st (Seq c1 c2) st1 o
| X_let rt G env st t i c st1 st2 o :
    make D G env st t i = Some st1 -> exec rt (G ++ [(false, t)]) (env ++ [fresh st]) st1 c st2 o -> exec rt G env st (Let t i c) st2 o
| X_letref rt G env st t e c a st2 o :
    eval D G env st e = Some (RL a) -> exec rt (G ++ [(true, t)]) (env ++ [a]) st c st2 o -> exec rt G env st (LetRef t e c) st2 o
| X_assign rt G env st l r a tl tr x v :
    typeof D G l = Some tl -> eval D G env st l = Some (RL a) -> typeof D G r = Some tr -> eval D G env st r = Some x ->
    coerce D st (i_ty tr) (i_ty tl) x = Some v -> exec rt G env st (Assign l r) (store st a v) Next
| X_update rt G env st l i a tl c z :
    typeof D G l = Some tl -> i_ty tl = TInt c -> eval D G env st l = Some (RL a) ->
    exec rt G env st (Update l i) (store st a (scal (VInt z))) Next
| X_move rt G env st l i a tl c b z a0 a1 ri :
    typeof D G l = Some tl -> i_ty tl = TPtr c b -> eval D G env st l = Some (RL a) -> eval D G env st i = Some ri ->
    value_of st ri [] = VInt z -> load st a [] = VPtr a0 -> move D st a0 z = Some a1 ->
    exec rt G env st (Update l i) (store st a (scal (VPtr a1))) Next
| X_if1 rt G env st c1 c2 st1 o : exec rt G env st c1 st1 o -> exec rt G env st (If c1 c2) st1 o
| X_if2 rt G env st c1 c2 st1 o : exec rt G env st c2 st1 o -> exec rt G env st (If c1 c2) st1 o
| X_while_end rt G env st c : exec rt G env st (While c) st Next
| X_while rt G env st c st1 st2 o : exec rt G env st c st1 Next -> exec rt G env st1 (While c) st2 o -> exec rt G env st (While c) st2 o
| X_while_out rt G env st c st1 o : exec rt G env st c st1 o -> o <> Next -> exec rt G env st (While c) st1 o
| X_call rt G env st f fn es st1 l st2 o :
    nth_error (funcs P) f = Some fn -> bind_all D G env st (params fn) es = Some (st1, l) ->
    exec (ret fn) (gvars P ++ params fn) (firstn (length (globals P)) env ++ l) st1 (body fn) st2 o ->
    exec rt G env st (Call f es) st2 (match o with Stopped => Stopped | _ => Next end)
| X_letcall_end rt G env st t f fn es c st1 l st2 :
    nth_error (funcs P) f = Some fn -> bind_all D G env st (params fn) es = Some (st1, l) ->
    exec (ret fn) (gvars P ++ params fn) (firstn (length (globals P)) env ++ l) st1 (body fn) st2 Stopped ->
    exec rt G env st (LetCall t f es c) st2 Stopped
| X_letcall rt G env st t f fn es c st1 l st2 v w st3 o :
    nth_error (funcs P) f = Some fn -> bind_all D G env st (params fn) es = Some (st1, l) ->
    exec (ret fn) (gvars P ++ params fn) (firstn (length (globals P)) env ++ l) st1 (body fn) st2 (Returned v) ->
    coerce D st2 (ret fn) t (RV v) = Some w ->
    exec rt (G ++ [(false, t)]) (env ++ [fresh st2]) (alloc st2 t w) c st3 o ->
    exec rt G env st (LetCall t f es c) st3 o
| X_ret rt G env st e te r v :
    typeof D G e = Some te -> eval D G env st e = Some r -> coerce D st (i_ty te) rt r = Some v ->
    exec rt G env st (Ret e) st (Returned v)
| X_fill rt G env st e z te r v a :
    typeof D G e = Some te -> eval D G env st e = Some r -> coerce D st (i_ty te) (TPtr false (TVoid false)) r = Some v ->
    v [] = VPtr a -> exec rt G env st (Fill e z) (store st a (scal (VInt z))) Next.
End Exec.

Fixpoint start_from (D : structs) (G : vars) (env : list addr) (st : state) (gs : list (ty * init)) : option (state * list addr) :=
  match gs with
  | [] => Some (st, env)
  | (t, i) :: gs =>
      match make D G env st t i with
      | Some st1 => start_from D (G ++ [(false, t)]) (env ++ [fresh st]) st1 gs
      | None => None
      end
  end.
Definition empty : state := {| blocks := []; mem := fun _ _ => VUnset |}.
(** A state that the program can be in: its global variables are made, then function 0 is called, and the execution is looked at at any
    point. *)
Definition reaches (P : prog) (st : state) : Prop :=
  exists st0 env o, start_from (defs P) [] [] empty (globals P) = Some (st0, env) /\
    exec P (TVoid false) (gvars P) env st0 (Call 0 []) st o.
