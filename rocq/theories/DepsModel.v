(** Dependency files, -M and -MMM: src/header.cpp 438-541, src/module.cpp 115-140, src/lex.ll 942-970. *)
From Coq Require Import ZArith List Bool Ascii String.
Import ListNotations.
Local Open Scope list_scope.

Definition text := list ascii.
Definition of_string (s : string) : text := list_ascii_of_string s.
Definition backslash : ascii := "092".
Definition quote : ascii := "034".
Definition newline : ascii := "010".
Definition tab : ascii := "009".
Definition blank : ascii := " ".

Fixpoint text_eqb (a b : text) : bool :=
  match a, b with
  | [], [] => true
  | x :: a, y :: b => Ascii.eqb x y && text_eqb a b
  | _, _ => false
  end.
(** operator< of std::string *)
Fixpoint text_ltb (a b : text) : bool :=
  match a, b with
  | [], _ :: _ => true
  | x :: a, y :: b =>
      if Nat.ltb (nat_of_ascii x) (nat_of_ascii y) then true else if Nat.ltb (nat_of_ascii y) (nat_of_ascii x) then false else text_ltb a b
  | _, [] => false
  end.

(** What the preprocessor, Clang's, writes between the quotes of a line marker: raw_ostream::write_escaped. *)
Definition octal (n : nat) : text := [ascii_of_nat (48 + n / 64); ascii_of_nat (48 + n / 8 mod 8); ascii_of_nat (48 + n mod 8)].
Definition printable (c : ascii) : bool := let n := nat_of_ascii c in Nat.leb 32 n && Nat.leb n 126.
Definition escape_char (c : ascii) : text :=
  if Ascii.eqb c backslash then [backslash; backslash]
  else if Ascii.eqb c tab then [backslash; "t"%char]
  else if Ascii.eqb c newline then [backslash; "n"%char]
  else if Ascii.eqb c quote then [backslash; quote]
  else if printable c then [c]
  else backslash :: octal (nat_of_ascii c).
Definition escape (name : text) : text := flat_map escape_char name.

(** lex.ll 961-968 lHandleCppHash: the name is everything up to a quote. *)
Fixpoint up_to_quote (s : text) : text :=
  match s with
  | [] => []
  | c :: r => if Ascii.eqb c quote then [] else c :: up_to_quote r
  end.
(** module.cpp 115-140 RegisterDependency, hosts other than Windows; [None]: a name that is not registered *)
Definition pseudo (name : text) : bool :=
  match name with c :: _ => Ascii.eqb c "<" | [] => false end
  || text_eqb name (of_string "stdlib.ispc") || text_eqb name (of_string "/core.isph") || text_eqb name (of_string "/stdlib.isph").
(** std::set: sorted, without repetitions *)
Fixpoint insert (name : text) (l : list text) : list text :=
  match l with
  | [] => [name]
  | d :: r => if text_ltb name d then name :: l else if text_eqb name d then l else d :: insert name r
  end.
Definition register (l : list text) (name : text) : list text := if pseudo name then l else insert name l.
(** The line markers of a program: the files in the order they are entered *)
Definition registered (files : list text) : list text :=
  fold_left (fun l f => register l (up_to_quote (escape f ++ [quote]))) files [].

(** header.cpp 438-467 lUnescapeStringInPlace *)
Definition unescaped (c : ascii) : option ascii :=
  if Ascii.eqb c "'" then Some "'"%char else if Ascii.eqb c "?" then Some "?"%char
  else if Ascii.eqb c backslash then Some backslash
  else if Ascii.eqb c "a" then Some "007"%char else if Ascii.eqb c "b" then Some "008"%char
  else if Ascii.eqb c "f" then Some "012"%char else if Ascii.eqb c "n" then Some newline
  else if Ascii.eqb c "r" then Some "013"%char else if Ascii.eqb c "t" then Some tab
  else if Ascii.eqb c "v" then Some "011"%char else None.
Fixpoint unescape (s : text) : text :=
  match s with
  | c :: (d :: r) as t =>
      if Ascii.eqb c backslash then match unescaped d with Some x => x :: unescape r | None => c :: unescape t end else c :: unescape t
  | _ => s
  end.

(** 469-484 DepsTargetName; [None] for the source: it was read from standard input *)
Fixpoint before_last_dot (s : text) : option text :=
  match s with
  | [] => None
  | c :: r => match before_last_dot r with
              | Some b => Some (c :: b)
              | None => if Ascii.eqb c "." then Some [] else None
              end
  end.
Definition target_name (given out : text) (source : option text) : text :=
  match given, out, source with
  | _ :: _, _, _ => given
  | [], _ :: _, _ => out
  | [], [], Some s => (match before_last_dot s with Some b => b | None => s end) ++ of_string ".o"
  | [], [], None => of_string "a.out"
  end.
(** 499-541 writeDeps *)
Definition rule (target : text) (source : option text) (deps : list text) : text :=
  target ++ of_string ":" ++ (match source with Some s => blank :: s | None => [] end)
  ++ flat_map (fun d => let u := unescape d in
                        if match source with Some s => text_eqb s u | None => false end then []
                        else [blank; backslash; newline; blank] ++ u) deps
  ++ [newline].
Definition flat (deps : list text) : text := flat_map (fun d => d ++ [newline]) deps.
