(** The pragmas of the guide: docs/ispc.rst 1645-1664, 6543-6558. *)
From Coq Require Import ZArith List Bool Ascii String.
From Verif Require Import PragmaModel.
Import ListNotations.
Local Open Scope list_scope.
Local Open Scope Z_scope.

(** Blanks between the parts of a pragma *)
Definition blanks (s : text) : Prop := Forall (fun c => c = " "%char \/ c = "009"%char \/ c = "013"%char) s.
(** Decimal numbers without a leading zero *)
Definition is_digit (c : ascii) : Prop := exists n, (n <= 9)%nat /\ c = ascii_of_nat (48 + n).
Fixpoint value (s : text) : Z :=
  match s with
  | [] => 0
  | c :: r => (Z.of_nat (nat_of_ascii c) - 48) * 10 ^ Z.of_nat (List.length r) + value r
  end.
Definition number (s : text) : Prop := Forall is_digit s /\ exists c r, s = c :: r /\ c <> "0"%char.

(** Numbers in other bases *)
Fixpoint position (c : ascii) (l : text) : option Z :=
  match l with
  | [] => None
  | d :: r => if Ascii.eqb c d then Some 0 else option_map Z.succ (position c r)
  end.
Definition digit_value (c : ascii) : option Z :=
  match position c (of_string "0123456789abcdef") with Some v => Some v | None => position c (of_string "0123456789ABCDEF") end.
Inductive numeral (base : Z) : text -> Z -> Prop :=
| numeral_nil : numeral base [] 0
| numeral_snoc s v c d : numeral base s v -> digit_value c = Some d -> d < base -> numeral base (s ++ [c]) (v * base + d).

(** The effect of a pragma without mistakes: the next line is the line after it. *)
Definition for_loop (u : unroll) : effect := {| e_lines := 1; e_loop := Some u; e_ignore := None; e_notes := [] |}.
Definition for_line (only_perf : bool) : effect := {| e_lines := 1; e_loop := None; e_ignore := Some only_perf; e_notes := [] |}.

(** The pragmas that turn off warnings *)
Inductive ignores : text -> bool -> Prop :=
| ignores_plain b1 b2 : blanks b1 -> blanks b2 -> ignores (b1 ++ of_string "ignore warning" ++ b2) false
| ignores_arg b1 b2 b3 b4 b5 (only_perf : bool) : blanks b1 -> blanks b2 -> blanks b3 -> blanks b4 -> blanks b5 -> hd " "%char b4 = " "%char ->
    ignores (b1 ++ of_string "ignore warning" ++ b2 ++ of_string "(" ++ b3 ++ of_string (if only_perf then "perf" else "all") ++ b4 ++ of_string ")" ++ b5) only_perf.
