(** The global variables and functions of a file that are declared and defined several times
    (src/module.cpp AddGlobalVariable, AddFunctionDeclaration, AddFunctionDefinition; src/func.cpp
    Function::GenerateIR; src/parse.yy).

    Simplifications: names and the types at the bottom of declarators are numbers; a type is such a number
    under a list of pointers, with the const of each level; initializers are numbers.  Unsized arrays,
    void variables, alignment, debug information, function templates, inline with noinline, the calling
    conventions and extern "SYCL" are left out.  Only one target is compiled for. *)
From Coq Require Import ZArith List Bool.
Import ListNotations.
Local Open Scope Z_scope.

Inductive sclass := SNone | SExtern | SStatic | SExternC.
Definition sclass_eqb (a b : sclass) : bool :=
  match a, b with
  | SNone, SNone | SExtern, SExtern | SStatic, SStatic | SExternC, SExternC => true
  | _, _ => false
  end.
(** ispc.h:129-136 *)
Definition is_any_extern (c : sclass) : bool := match c with SExtern | SExternC => true | _ => false end.

(** A type: what is at the bottom, whether that is const, and the pointers over it, the outermost first,
    each with its const. *)
Record ty := Ty { tbase : Z; tconst : bool; tptrs : list bool }.
Fixpoint bools_eqb (a b : list bool) : bool :=
  match a, b with
  | [], [] => true
  | x :: a, y :: b => Bool.eqb x y && bools_eqb a b
  | _, _ => false
  end.
(** Type::Equal (type.cpp:3386-3440), for these types. *)
Definition ty_eqb (a b : ty) : bool :=
  (tbase a =? tbase b) && Bool.eqb (tconst a) (tconst b) && bools_eqb (tptrs a) (tptrs b).
Definition is_const (t : ty) : bool := match tptrs t with [] => tconst t | c :: _ => c end.

(** A declaration of a global variable: the bottom of the type, with the const it has by itself (a typedef
    of a const type); whether const is among the specifiers of the declaration; the pointers of the
    declarator; storage class and initializer. *)
Record vdecl := {
  d_name : Z; d_base : Z; d_own_const : bool; d_const : bool; d_ptrs : list bool;
  d_class : sclass; d_init : option Z
}.
(** decl.cpp:141-150: the const among the specifiers goes to the bottom of the type. *)
Definition d_type (d : vdecl) : ty := Ty (d_base d) (d_own_const d || d_const d) (d_ptrs d).

(** The symbol of a global variable with its storage: [g_init] is the initial value, [None] for storage in
    another file; [g_readonly] LLVM's constant flag; [g_internal] the linkage; [g_value] what is put in place of
    the variable at compile time. *)
Record gvar := {
  g_name : Z; g_type : ty; g_class : sclass;
  g_init : option Z; g_readonly : bool; g_internal : bool; g_value : option Z
}.

(** The type of a function as far as Type::Equal compares it (type.cpp:3456-3484), and the attribute
    external_only that it does not compare. *)
Inductive fkind := KPlain | KTask | KExport | KExternC.
Definition fkind_eqb (a b : fkind) : bool :=
  match a, b with
  | KPlain, KPlain | KTask, KTask | KExport, KExport | KExternC, KExternC => true
  | _, _ => false
  end.
Record ftype := FT { f_ret : ty; f_params : list ty; f_kind : fkind; f_unmasked : bool; f_external_only : bool }.
Fixpoint tys_eqb (a b : list ty) : bool :=
  match a, b with
  | [], [] => true
  | x :: a, y :: b => ty_eqb x y && tys_eqb a b
  | _, _ => false
  end.
Definition ftype_eqb (a b : ftype) : bool :=
  ty_eqb (f_ret a) (f_ret b) && fkind_eqb (f_kind a) (f_kind b) && Bool.eqb (f_unmasked a) (f_unmasked b) &&
  tys_eqb (f_params a) (f_params b).

(** The type number of void (for tasks). *)
Definition void : ty := Ty 0 false [].

(** A declaration of a function, and the symbol of one, with the code that ispc code calls and the code that
    the application calls (export and extern "C"). *)
Record fdecl := { fd_name : Z; fd_type : ftype; fd_class : sclass; fd_inline : bool }.
Record fsym := {
  s_name : Z; s_type : ftype; s_class : sclass; s_inline : bool;
  s_code : option Z; s_app : option Z; s_internal : bool
}.

(** What a file is at the outermost level: variables, and functions with or without a body. *)
Inductive item := IVar (d : vdecl) | IFun (f : fdecl) (body : option Z).

(** The state of the compiler: variables, functions, the bodies to generate code for, and whether an error was
    reported. *)
Record state := { vars : list gvar; funs : list fsym; bodies : list (Z * ftype * Z); err : bool }.
Definition initial : state := {| vars := []; funs := []; bodies := []; err := false |}.
Definition error (s : state) : state := {| vars := vars s; funs := funs s; bodies := bodies s; err := true |}.
Definition error_if (b : bool) (s : state) : state := if b then error s else s.

(** sym.cpp:124-137, 153-180 *)
Definition lookup_var (n : Z) (vs : list gvar) : option gvar := find (fun g => g_name g =? n) vs.
Definition lookup_funs (n : Z) (fs : list fsym) : list fsym := filter (fun f => s_name f =? n) fs.
Definition lookup_fun (n : Z) (t : ftype) (fs : list fsym) : option fsym :=
  find (fun f => (s_name f =? n) && ftype_eqb (s_type f) t) fs.

Definition replace_var (g : gvar) (vs : list gvar) : list gvar :=
  map (fun v => if g_name v =? g_name g then g else v) vs.

(** module.cpp:651-760: the initial value, zero if none was given; none for extern variables, for which an
    initializer is an error. *)
Definition initializer (d : vdecl) : option Z :=
  match d_class d with
  | SExtern => None
  | _ => Some (match d_init d with Some v => v | None => 0 end)
  end.
(** module.cpp:735-742 *)
Definition const_value (d : vdecl) : option Z :=
  match d_class d with
  | SExtern => None
  | _ => if is_const (d_type d) then d_init d else None
  end.

(** Module::AddGlobalVariable, module.cpp:586-845; the second argument is what parse.yy:3479 computes. *)
Definition add_var (s : state) (d : vdecl) (readonly : bool) : state :=
  (* 629-632 *)
  if negb (match lookup_funs (d_name d) (funs s) with [] => true | _ => false end) then error s
  (* 639-642 *)
  else if sclass_eqb (d_class d) SExternC then error s
  else
    (* 679-682 *)
    let s := error_if (sclass_eqb (d_class d) SExtern && match d_init d with Some _ => true | None => false end) s in
    match lookup_var (d_name d) (vars s) with
    | Some g =>
        (* 773-777 *)
        if negb (ty_eqb (g_type g) (d_type d)) ||
           (negb (is_any_extern (g_class g)) && negb (sclass_eqb (g_class g) (d_class d))) then error s
        (* 782-787 *)
        else if match g_init g with Some _ => true | None => false end && negb (is_any_extern (g_class g)) then error s
        else
          (* 789-805 *)
          let g' := {| g_name := g_name g; g_type := g_type g; g_class := g_class g;
                       g_init := match g_init g with Some v => Some v | None => initializer d end;
                       g_readonly := readonly; g_internal := g_internal g; g_value := const_value d |} in
          {| vars := replace_var g' (vars s); funs := funs s; bodies := bodies s; err := err s |}
    | None =>
        (* 807-822 *)
        let g := {| g_name := d_name d; g_type := d_type d; g_class := d_class d;
                    g_init := initializer d; g_readonly := readonly;
                    g_internal := sclass_eqb (d_class d) SStatic; g_value := const_value d |} in
        {| vars := vars s ++ [g]; funs := funs s; bodies := bodies s; err := err s |}
    end.

(** The functions that have the name already, module.cpp:988-1037: the same function is found; an error ends
    it (overloading by the return type only); or the function is new, after errors (export) or not. *)
Inductive overload := Same (e : bool) | Stop | New (e : bool).
Fixpoint overloads (e : bool) (t : ftype) (fs : list fsym) : overload :=
  match fs with
  | [] => New e
  | f :: fs =>
      if ftype_eqb (s_type f) t then Same e
      else
        let e := e || fkind_eqb (f_kind t) KExport || fkind_eqb (f_kind (s_type f)) KExport in
        if tys_eqb (f_params (s_type f)) (f_params t) then Stop else overloads e t fs
  end.

(** Module::AddFunctionDeclaration, module.cpp:973-1283 *)
Definition add_fun (s : state) (d : fdecl) : state :=
  (* 980-984 *)
  if match lookup_var (fd_name d) (vars s) with Some _ => true | None => false end then error s
  else
    let t := fd_type d in
    match overloads false t (lookup_funs (fd_name d) (funs s)) with
    | Same e => error_if e s
    | Stop => error s
    | New e =>
        let s := error_if e s in
        (* 1040-1074 *)
        if fkind_eqb (f_kind t) KExternC &&
           negb (match lookup_funs (fd_name d) (funs s) with [] => true | _ => false end) then error s
        else
          (* 1157-1159 *)
          let s := error_if (fkind_eqb (f_kind t) KTask && negb (ty_eqb (f_ret t) void)) s in
          (* 1276-1282 *)
          let f := {| s_name := fd_name d; s_type := t; s_class := fd_class d;
                      s_inline := fd_inline d && negb (fkind_eqb (f_kind t) KExternC);
                      s_code := None; s_app := None; s_internal := false |} in
          {| vars := vars s; funs := funs s ++ [f]; bodies := bodies s; err := err s |}
    end.

(** Module::AddFunctionDefinition, module.cpp:1285-1305 *)
Definition set_type (n : Z) (t : ftype) (f : fsym) : fsym :=
  if (s_name f =? n) && ftype_eqb (s_type f) t
  then {| s_name := s_name f; s_type := t; s_class := s_class f; s_inline := s_inline f;
          s_code := s_code f; s_app := s_app f; s_internal := s_internal f |}
  else f.
Definition add_body (s : state) (d : fdecl) (b : Z) : state :=
  match lookup_fun (fd_name d) (fd_type d) (funs s) with
  | None => s
  | Some _ =>
      {| vars := vars s; funs := map (set_type (fd_name d) (fd_type d)) (funs s);
         bodies := bodies s ++ [(fd_name d, fd_type d, b)]; err := err s |}
  end.

(** parse.yy:3440-3482 (lAddDeclaration) and 2852-2877 *)
Definition step (s : state) (i : item) : state :=
  match i with
  | IVar d => add_var s d (d_const d)
  | IFun d None => add_fun s d
  | IFun d (Some b) => add_body (add_fun s d) d b
  end.
Definition read (h : list item) : state := fold_left step h initial.

(** Function::GenerateIR, func.cpp:658-800, for one body; [internal] is g->generateInternalExportFunctions. *)
Definition generate_one (internal : bool) (f : fsym) (b : Z) (e : bool) : fsym * bool :=
  match s_code f with
  | Some _ => (f, true)                               (* 668-671 *)
  | None =>
      let t := s_type f in
      (* 695 *)
      let skip := f_external_only t || (fkind_eqb (f_kind t) KExport && negb internal) in
      let code := if skip then None else Some b in
      let for_app := fkind_eqb (f_kind t) KExport || fkind_eqb (f_kind t) KExternC in
      (* 730-776: the name is taken already, or code is generated once more *)
      let app := if e then s_app f
                 else if for_app then match s_app f with Some a => Some a | None => Some b end
                 else s_app f in
      (* 777-786 *)
      let int := if e then s_internal f
                 else if for_app then s_internal f
                 else if sclass_eqb (s_class f) SStatic || s_inline f then true else s_internal f in
      ({| s_name := s_name f; s_type := t; s_class := s_class f; s_inline := s_inline f;
          s_code := code; s_app := app; s_internal := int |}, e)
  end.
Fixpoint generate_at (internal : bool) (n : Z) (t : ftype) (b : Z) (e : bool) (fs : list fsym) : list fsym * bool :=
  match fs with
  | [] => ([], e)
  | f :: fs =>
      if (s_name f =? n) && ftype_eqb (s_type f) t then
        let (f', e') := generate_one internal f b e in (f' :: fs, e')
      else let (fs', e') := generate_at internal n t b e fs in (f :: fs', e')
  end.
(** AST::GenerateIR, ast.cpp:140-144 *)
Definition generate (internal : bool) (s : state) : state :=
  fold_left (fun s (b : Z * ftype * Z) =>
               let '(n, t, c) := b in
               let (fs, e) := generate_at internal n t c (err s) (funs s) in
               {| vars := vars s; funs := fs; bodies := bodies s; err := e |}) (bodies s) s.

(** The compiler on a file: reading stops before code generation if there were errors. *)
Definition compile (internal : bool) (h : list item) : option state :=
  let s := read h in
  if err s then None
  else let s := generate internal s in if err s then None else Some s.
