(** What the declarations of a name in a file have to do with each other and with the program. *)
From Coq Require Import ZArith List Bool.
From Verif Require Import RedeclModel.
Import ListNotations.
Local Open Scope Z_scope.

(** The declarations of the variable [n] in a file, in order, and those of them that define it. *)
Definition var_decls (n : Z) (h : list item) : list vdecl :=
  flat_map (fun i => match i with IVar d => if d_name d =? n then [d] else [] | IFun _ _ => [] end) h.
Definition is_extern (d : vdecl) : bool := match d_class d with SExtern => true | _ => false end.
Definition var_defs (n : Z) (h : list item) : list vdecl := filter (fun d => negb (is_extern d)) (var_decls n h).

(** The value a definition gives its variable. *)
Definition start_value (d : vdecl) : Z := match d_init d with Some v => v | None => 0 end.

(** The declarations of functions named [n], and the same function: same return type, parameters and
    qualifiers. *)
Definition fun_decls (n : Z) (h : list item) : list fdecl :=
  flat_map (fun i => match i with IFun d _ => if fd_name d =? n then [d] else [] | IVar _ => [] end) h.
Definition same_type (a b : ftype) : Prop :=
  f_ret a = f_ret b /\ f_params a = f_params b /\ f_kind a = f_kind b /\ f_unmasked a = f_unmasked b.

(** The bodies given to the function [n] of type [t], in order: [ls] is their list. *)
Inductive bodies_for (n : Z) (t : ftype) : list item -> list Z -> Prop :=
| B_nil : bodies_for n t [] []
| B_body d b h ls : fd_name d = n -> same_type (fd_type d) t -> bodies_for n t h ls ->
    bodies_for n t (IFun d (Some b) :: h) (b :: ls)
| B_other i h ls : (forall d b, i = IFun d (Some b) -> fd_name d <> n \/ ~ same_type (fd_type d) t) ->
    bodies_for n t h ls -> bodies_for n t (i :: h) ls.

(** Whether the type of a declared variable is const: the type of the object itself, not of what it points
    to. *)
Definition const_object (d : vdecl) : Prop :=
  match d_ptrs d with
  | [] => d_const d = true \/ d_own_const d = true
  | c :: _ => c = true
  end.

(** Files that follow the rules: a name is a variable or functions; a variable has extern declarations and then
    at most one definition, all of the same type; functions of one name are the same or differ in their parameters,
    with no exported function among them and an extern "C" one only as the first; tasks return nothing; a
    function has one body. *)
Inductive legal : list item -> Prop :=
| L_nil : legal []
| L_var h d : legal h -> fun_decls (d_name d) h = [] -> d_class d <> SExternC ->
    (d_class d = SExtern -> d_init d = None) ->
    (forall e, In e (var_decls (d_name d) h) -> d_class e = SExtern /\ d_type e = d_type d) ->
    legal (h ++ [IVar d])
| L_fun h d b : legal h -> var_decls (fd_name d) h = [] ->
    (forall e, In e (fun_decls (fd_name d) h) -> same_type (fd_type e) (fd_type d) \/
       (f_params (fd_type e) <> f_params (fd_type d) /\ f_kind (fd_type e) <> KExport /\
        f_kind (fd_type d) <> KExport /\ f_kind (fd_type d) <> KExternC)) ->
    (f_kind (fd_type d) = KTask -> f_ret (fd_type d) = void) ->
    (b <> None -> forall e c, In (IFun e (Some c)) h -> fd_name e = fd_name d -> ~ same_type (fd_type e) (fd_type d)) ->
    legal (h ++ [IFun d b]).
