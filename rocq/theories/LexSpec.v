(** * What literals and comments mean, from docs/ispc.rst 2816-2850 and 2918-2955 *)
From Coq Require Import ZArith Ascii String List.
From Verif Require Import TypesModel LexModel.
Import ListNotations.
Local Open Scope Z_scope.

(** a digit is a position in the alphabet *)
Definition digit (c : ascii) (d : nat) : Prop :=
  nth_error (list_ascii_of_string "0123456789abcdef") d = Some c \/
  nth_error (list_ascii_of_string "0123456789ABCDEF") d = Some c.
(** the value of a sequence of digits *)
Inductive denotes (base : Z) : name -> Z -> Prop :=
| denotes_one c d : digit c d -> Z.of_nat d < base -> denotes base [c] (Z.of_nat d)
| denotes_more s v c d : denotes base s v -> digit c d -> Z.of_nat d < base -> denotes base (s ++ [c]) (v * base + Z.of_nat d).

Inductive numeral : name -> Z -> Prop :=
| decimal s v : denotes 10 s v -> numeral s v
| hexadecimal x s v : (x = "x" \/ x = "X")%char -> denotes 16 s v -> numeral ("0"%char :: x :: s) v
| binary s v : denotes 2 s v -> numeral ("0"%char :: "b"%char :: s) v.
(** a decimal numeral of several digits that starts with 0 *)
Definition leading_zero (s : name) : Prop := exists c r v, s = "0"%char :: c :: r /\ denotes 10 s v.

Inductive unit_suffix : name -> Z -> Prop :=
| unit_none : unit_suffix [] 1
| unit_k : unit_suffix (lit "k") 1024
| unit_M : unit_suffix (lit "M") (1024 * 1024)
| unit_G : unit_suffix (lit "G") (1024 * 1024 * 1024).

(** the type suffixes: whether u is there, and how many l *)
Definition u_part (s : name) (u : bool) : Prop := if u then s = lit "u" \/ s = lit "U" else s = [].
Definition l_part (s : name) (n : nat) : Prop := length s = n /\ (n <= 2)%nat /\ Forall (fun c => c = "l" \/ c = "L")%char s.
Definition type_suffix (s : name) (u : bool) (n : nat) : Prop :=
  exists us ls, u_part us u /\ l_part ls n /\ (s = us ++ ls \/ s = ls ++ us).

Definition holds (t : token) (v : Z) : Prop :=
  match t with
  | INT8 => v < 2 ^ 7 | UINT8 => v < 2 ^ 8 | INT16 => v < 2 ^ 15 | UINT16 => v < 2 ^ 16
  | INT32 => v < 2 ^ 31 | UINT32 => v < 2 ^ 32 | INT64 => v < 2 ^ 63 | UINT64 => v < 2 ^ 64
  end.
(** the types a literal can have, in order of preference; [width] is the target's data type width *)
Definition candidates (dots : bool) (width : Z) (u : bool) (n : nat) : list token :=
  match n, u with
  | 0%nat, true => [UINT32; UINT64]
  | 0%nat, false =>
      if dots then [INT32; INT64]
      else (if width =? 8 then [INT8; UINT8] else []) ++ (if width =? 16 then [INT16; UINT16] else []) ++
           [INT32; UINT32; INT64; UINT64]
  | 1%nat, true => [UINT32] | 1%nat, false => [INT32]
  | _, true => [UINT64] | _, false => [INT64]
  end.
(** the first one that can hold the value *)
Inductive first_holds (v : Z) : list token -> token -> Prop :=
| first_here t l : holds t v -> first_holds v (t :: l) t
| first_later t l t' : ~ holds t v -> first_holds v l t' -> first_holds v (t :: l) t'.

(** what l or ll ask for, and the value a type of so many bits gives a number that it may not hold *)
Definition asked (u : bool) (n : nat) : token * Z :=
  match n, u with
  | 1%nat, true => (UINT32, 32) | 1%nat, false => (INT32, 32) | _, true => (UINT64, 64) | _, false => (INT64, 64)
  end.
Definition reduced (u : bool) (bits v r : Z) : Prop :=
  (exists q, v = q * 2 ^ bits + r) /\ (if u then 0 <= r < 2 ^ bits else - 2 ^ (bits - 1) <= r < 2 ^ (bits - 1)).

(** ** Strings *)
Definition character (v : Z) : ascii := ascii_of_nat (Z.to_nat v).
Definition documented_escape (e : ascii) (x : Z) : Prop :=
  In (e, x) [("\", 92); ("""", 34); ("'", 39); ("a", 7); ("b", 8); ("f", 12); ("n", 10); ("r", 13); ("t", 9); ("v", 11)]%char.
Definition starts_with_digit (base : Z) (s : name) : Prop := exists c r v, s = c :: r /\ denotes base [c] v.
(** [hex]: whether hexadecimal escapes occur *)
Inductive spells (hex : bool) : name -> name -> Prop :=
| spells_nil : spells hex [] []
| spells_plain c s t : c <> "\"%char -> c <> """"%char -> spells hex s t -> spells hex (c :: s) (c :: t)
| spells_escape e x s t : documented_escape e x -> spells hex s t -> spells hex ("\"%char :: e :: s) (character x :: t)
| spells_octal ds v s t : denotes 8 ds v -> v < 256 -> ~ starts_with_digit 8 s -> spells hex s t ->
    spells hex ("\"%char :: ds ++ s) (character v :: t)
| spells_hex ds v s t : hex = true -> denotes 16 ds v -> v < 256 -> ~ starts_with_digit 16 s -> spells hex s t ->
    spells hex ("\"%char :: "x"%char :: ds ++ s) (character v :: t).

(** ** Comments *)
Definition contains (w s : name) : Prop := exists a b, s = a ++ w ++ b.
Definition line_ends (s : name) : nat := count_occ ascii_dec s (ascii_of_nat 10).
