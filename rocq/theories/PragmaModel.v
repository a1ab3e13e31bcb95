(** Pragmas: src/lex.ll 311-315, 738-918.  A line is the text between "#pragma" and the end of the line; it has no null
    characters.  The columns of positions are not modelled. *)
From Coq Require Import ZArith List Bool Ascii String.
From Verif Require Import Bits.
Import ListNotations.
Local Open Scope list_scope.
Local Open Scope Z_scope.

Definition text := list ascii.
Definition of_string (s : string) : text := list_ascii_of_string s.

(** Globals::pragmaUnrollType, src/ispc.h 942, with the count of PragmaAttributes *)
Inductive unroll := UNone | UNo | UFull | UCount (n : Z).
Inductive note := ZeroCount | IncompleteUnroll | ExtraTokens | BadArgument | IncompleteWarning | Undefined | Unknown.
(** Error, or Warning *)
Definition is_error (x : note) : bool := match x with ExtraTokens | Unknown => false | _ => true end.
(** What a pragma does: how much pos->last_line grows, the attributes of TOKEN_PRAGMA, what is entered in g->turnOffWarnings
    for the line then reached (true: performance warnings only), and the messages. *)
Record effect := { e_lines : Z; e_loop : option unroll; e_ignore : option bool; e_notes : list note }.

Definition blank (c : ascii) : bool := Ascii.eqb c " " || Ascii.eqb c "009" || Ascii.eqb c "013".
(** 738-743 lNextValidChar *)
Fixpoint next_valid (s : text) : text :=
  match s with
  | c :: r => if blank c then next_valid r else s
  | [] => []
  end.
(** isspace in the C locale *)
Definition space (c : ascii) : bool :=
  let n := Z.of_nat (nat_of_ascii c) in ((9 <=? n) && (n <=? 13)) || (n =? 32).
Fixpoint skip_space (s : text) : text :=
  match s with
  | c :: r => if space c then skip_space r else s
  | [] => []
  end.
Definition digit (c : ascii) : Z :=
  let n := Z.of_nat (nat_of_ascii c) in
  if (48 <=? n) && (n <=? 57) then n - 48
  else if (97 <=? n) && (n <=? 122) then n - 87
  else if (65 <=? n) && (n <=? 90) then n - 55 else 99.
Fixpoint digits (base v : Z) (s : text) : Z * text :=
  match s with
  | c :: r => if digit c <? base then digits base (v * base + digit c) r else (v, s)
  | [] => (v, s)
  end.
Definition starts_digit (base : Z) (s : text) : bool := match s with c :: _ => digit c <? base | [] => false end.
(** strtoull(s, &end, 0) of the C library *)
Definition strtoull (s : text) : Z * text :=
  let t := skip_space s in
  let (neg, t) := match t with
                  | c :: r => if Ascii.eqb c "-" then (true, r) else if Ascii.eqb c "+" then (false, r) else (false, t)
                  | [] => (false, t)
                  end in
  let finish (p : Z * text) := let (v, r) := p in ((if 2 ^ 64 <=? v then 2 ^ 64 - 1 else if neg then wrapu 64 (- v) else v), r) in
  match t with
  | c :: r =>
      if Ascii.eqb c "0"
      then match r with
           | x :: h => if (Ascii.eqb x "x" || Ascii.eqb x "X") && starts_digit 16 h then finish (digits 16 0 h) else finish (digits 8 0 t)
           | [] => finish (0, [])
           end
      else if starts_digit 10 t then finish (digits 10 0 t) else (0, s)
  | [] => (0, s)
  end.
Fixpoint text_eqb (a b : text) : bool :=
  match a, b with
  | [], [] => true
  | x :: a, y :: b => Ascii.eqb x y && text_eqb a b
  | _, _ => false
  end.

(** 747-814 lPragmaUnroll; [count] is an int *)
Definition pragma_nounroll (s : text) : effect :=
  match next_valid s with
  | [] => {| e_lines := 1; e_loop := Some UNo; e_ignore := None; e_notes := [] |}
  | _ => {| e_lines := 1; e_loop := Some UNone; e_ignore := None; e_notes := [ExtraTokens] |}
  end.
Definition pragma_unroll (s : text) : effect :=
  match next_valid s with
  | [] => {| e_lines := 1; e_loop := Some UFull; e_ignore := None; e_notes := [] |}
  | c :: r =>
      let par := Ascii.eqb c "(" in
      let t := if par then r else c :: r in
      let (v, rest) := strtoull t in
      let count := wraps 32 v in
      let zero := (count =? 0) && negb (text_eqb rest t) in
      let rest := next_valid rest in
      let closed := if par then match rest with d :: _ => Ascii.eqb d ")" | [] => false end else true in
      {| e_lines := 1; e_loop := Some (UCount count); e_ignore := None;
         e_notes := (if zero then [ZeroCount] else []) ++ (if closed then [] else [IncompleteUnroll]) |}
  end.

(** 833-837 *)
Fixpoint take_arg (s : text) : text * text :=
  match s with
  | c :: r => if Ascii.eqb c " " || Ascii.eqb c ")" then ([], s) else let (a, r) := take_arg r in (c :: a, r)
  | [] => ([], [])
  end.
Definition undefined : effect := {| e_lines := 0; e_loop := None; e_ignore := None; e_notes := [Undefined] |}.
(** 818-873 lPragmaIgnoreWarning *)
Definition pragma_ignore (s : text) : effect :=
  match next_valid s with
  | [] => {| e_lines := 1; e_loop := None; e_ignore := Some false; e_notes := [] |}
  | c :: r =>
      if Ascii.eqb c "("
      then
        let (arg, rest) := take_arg (next_valid r) in
        match rest with
        | [] => {| e_lines := 1; e_loop := None; e_ignore := None; e_notes := [IncompleteWarning] |}
        | _ =>
            match next_valid rest with
            | d :: u =>
                if Ascii.eqb d ")"
                then match next_valid u with
                     | [] =>
                         if text_eqb arg (of_string "perf") then {| e_lines := 1; e_loop := None; e_ignore := Some true; e_notes := [] |}
                         else if text_eqb arg (of_string "all") then {| e_lines := 1; e_loop := None; e_ignore := Some false; e_notes := [] |}
                         else {| e_lines := 1; e_loop := None; e_ignore := None; e_notes := [BadArgument] |}
                     | _ => undefined
                     end
                else undefined
            | [] => undefined
            end
        end
      else undefined
  end.

Fixpoint after (prefix s : text) : option text :=
  match prefix, s with
  | [], _ => Some s
  | x :: p, y :: r => if Ascii.eqb x y then after p r else None
  | _, [] => None
  end.
(** 878-917 lConsumePragma *)
Definition consume (line : text) : effect :=
  match next_valid line with
  | [] => {| e_lines := 1; e_loop := None; e_ignore := None; e_notes := [] |}
  | req =>
      match after (of_string "unroll") req with
      | Some s => pragma_unroll s
      | None =>
          match after (of_string "nounroll") req with
          | Some s => pragma_nounroll s
          | None =>
              match after (of_string "ignore warning") req with
              | Some s => pragma_ignore s
              | None => {| e_lines := 0; e_loop := None; e_ignore := None; e_notes := [Unknown] |}
              end
          end
      end
  end.
