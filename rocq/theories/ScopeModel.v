(** * The symbol table: src/sym.cpp *)
From Coq Require Import List Bool Arith ZArith.
From Verif Require Import TypesModel.
Import ListNotations.

(** std::map from names: at most one entry per name.  (The order of the entries is that of insertion; the
    code only iterates over a map to collect suggestions.) *)
Definition smap (A : Type) := list (name * A).
Fixpoint map_find {A} (x : name) (m : smap A) : option A :=
  match m with
  | [] => None
  | (y, a) :: m => if name_eqb x y then Some a else map_find x m
  end.
(* m[x] = a *)
Fixpoint map_set {A} (x : name) (a : A) (m : smap A) : smap A :=
  match m with
  | [] => [(x, a)]
  | (y, b) :: m => if name_eqb x y then (y, a) :: m else (y, b) :: map_set x a m
  end.

(** A Type: an UndefinedStructType (declared, not defined) or something else. *)
Inductive type_entry := Undefined (id : nat) | Defined (id : nat).

(** sym.h: class SymbolTable.  The vectors variables and types are kept with the innermost scope first.
    Intrinsics and templates are left out. *)
Record table := Table {
  variables : list (smap nat);
  freeSymbolMaps : list (smap nat);
  types : list (smap type_entry);
  functions : smap (list (nat * ty)) }.

(* sym.cpp:47-52 the constructor opens the outermost scope *)
Definition PushScope (t : table) : table :=      (* 69-81 *)
  match freeSymbolMaps t with
  | _ :: free => Table ([] :: variables t) free ([] :: types t) (functions t)   (* taken from the free ones, erased *)
  | [] => Table ([] :: variables t) [] ([] :: types t) (functions t)
  end.
Definition initial : table := PushScope (Table [] [] [] []).

(* 83-90; the assertions are the guard *)
Definition PopScope (t : table) : table :=
  match variables t, types t with
  | v :: vs, _ :: ts => Table vs (v :: freeSymbolMaps t) ts (functions t)
  | _, _ => t
  end.
(* 92-96: while (variables.size() > 1) PopScope(); *)
Definition PopInnerScopes (t : table) : table := Nat.iter (length (variables t) - 1) PopScope t.

(* 98-124.  The loop from the innermost scope outwards. *)
Fixpoint shadow_loop (x : name) (innermost : bool) (vs : list (smap nat)) : option bool :=
  match vs with
  | [] => None                                                  (* no match *)
  | m :: vs => match map_find x m with
               | Some _ => Some innermost
               | None => shadow_loop x false vs
               end
  end.
Definition add_innermost (x : name) (i : nat) (t : table) : table :=
  match variables t with
  | m :: vs => Table (map_set x i m :: vs) (freeSymbolMaps t) (types t) (functions t)
  | [] => t
  end.
Definition AddVariable (x : name) (i : nat) (t : table) : bool * table :=
  match shadow_loop x true (variables t) with
  | Some true => (false, t)                                     (* redeclaration *)
  | Some false => (true, add_innermost x i t)                   (* shadows *)
  | None => (true, add_innermost x i t)
  end.

(* 126-139 *)
Fixpoint lookup_scopes {A} (x : name) (vs : list (smap A)) : option A :=
  match vs with
  | [] => None
  | m :: vs => match map_find x m with Some a => Some a | None => lookup_scopes x vs end
  end.
Definition LookupVariable (x : name) (t : table) : option nat := lookup_scopes x (variables t).

(* 173-184 *)
Definition LookupFunction (x : name) (ft : ty) (t : table) : option nat :=
  match map_find x (functions t) with
  | Some fs => option_map fst (find (fun f => equal false (snd f) ft) fs)
  | None => None
  end.
(* 157-171 *)
Definition LookupFunctions (x : name) (t : table) : list (nat * ty) :=
  match map_find x (functions t) with Some fs => fs | None => [] end.
(* 141-155 *)
Definition AddFunction (x : name) (i : nat) (ft : ty) (t : table) : bool * table :=
  match LookupFunction x ft t with
  | Some _ => (false, t)
  | None => (true, Table (variables t) (freeSymbolMaps t) (types t)
                         (map_set x (LookupFunctions x t ++ [(i, ft)]) (functions t)))
  end.

(* 298-308 *)
Definition LookupLocalType (x : name) (t : table) : option type_entry :=
  match types t with m :: _ => map_find x m | [] => None end.
(* 287-296 *)
Definition LookupType (x : name) (t : table) : option type_entry := lookup_scopes x (types t).
(* 252-285; the error about incomplete fields does not change what is stored *)
Definition AddType (x : name) (e : type_entry) (t : table) : bool * table :=
  match LookupLocalType x t with
  | Some (Defined _) => (false, t)
  | _ => (true,
          match types t with
          | m :: ts => Table (variables t) (freeSymbolMaps t) (map_set x e m :: ts) (functions t)
          | [] => t
          end)
  end.

(** What the parser does to the table. *)
Inductive op :=
| Open | Close
| Declare (x : name) (i : nat)
| DeclareType (x : name) (e : type_entry)
| DeclareFunction (x : name) (i : nat) (ft : ty).
Definition step (t : table) (o : op) : table :=
  match o with
  | Open => PushScope t
  | Close => PopScope t
  | Declare x i => snd (AddVariable x i t)
  | DeclareType x e => snd (AddType x e t)
  | DeclareFunction x i ft => snd (AddFunction x i ft t)
  end.
Definition run (h : list op) (t : table) : table := fold_left step h t.

(** ** Suggestions *)

Fixpoint list_eqb {A} (eqb : A -> A -> bool) (a b : list A) : bool :=
  match a, b with
  | [], [] => true
  | x :: a, y :: b => eqb x y && list_eqb eqb a b
  | _, _ => false
  end.

(* util.cpp:500-504: one row.  [c] is str1[y-1]; [left] is current[x-1], [diag] previous[x-1]. *)
Fixpoint ed_row (c : Ascii.ascii) (left diag : nat) (previous : list nat) (str2 : name) : list nat :=
  match previous, str2 with
  | up :: previous, d :: str2 =>
      let v := Nat.min (diag + (if Ascii.eqb c d then 0 else 1)) (Nat.min left up + 1) in
      v :: ed_row c v up previous str2
  | _, _ => []
  end.
(* 496-511: the loop over y; [previous] is the whole row *)
Fixpoint ed_loop (y : nat) (str1 str2 : name) (maxDist : nat) (previous : list nat) : nat :=
  match str1 with
  | [] => last previous 0
  | c :: str1 =>
      match previous with
      | diag :: ups =>
          let row := ed_row c y diag ups str2 in
          let rowBest := fold_left Nat.min row y in
          if negb (Nat.eqb maxDist 0) && Nat.ltb maxDist rowBest then maxDist + 1
          else ed_loop (S y) str1 str2 maxDist (y :: row)
      | [] => 0
      end
  end.
(* 478-514 *)
Definition StringEditDistance (str1 str2 : name) (maxDist : nat) : nat :=
  if list_eqb Ascii.eqb str1 str2 then maxDist
  else ed_loop 1 str1 str2 maxDist (seq 0 (S (length str2))).

(* sym.cpp:310-348, util.cpp:516-543: the names in the first non-empty class *)
Definition closest (str : name) (options : list name) : list name :=
  let class d := filter (fun o => Nat.eqb (StringEditDistance str o 3) d) options in
  match class 0 with
  | _ :: _ => class 0
  | [] => match class 1 with _ :: _ => class 1 | [] => class 2 end
  end.
Definition ClosestVariableOrFunctionMatch (str : name) (t : table) : list name :=
  closest str (flat_map (map fst) (rev (variables t)) ++ map fst (functions t)).
(* 516-520: strings of one character that is no letter are not tried *)
Definition is_letter (c : Ascii.ascii) : bool :=
  let n := Ascii.N_of_ascii c in
  ((65 <=? n) && (n <=? 90) || (97 <=? n) && (n <=? 122))%N.
Definition MatchStrings (str : name) (options : list name) : list name :=
  match str with
  | [] => []
  | [c] => if is_letter c then closest str options else []
  | _ => closest str options
  end.
