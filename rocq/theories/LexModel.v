(** * The scanner: src/lex.ll (numbers, strings and comments) and the constants of src/parse.yy *)
From Coq Require Import ZArith Bool Ascii String List.
From Verif Require Import Bits TypesModel.
Import ListNotations.
Local Open Scope Z_scope.

(** ** Integers *)

Definition code (c : ascii) : Z := Z.of_N (N_of_ascii c).
Definition between (lo hi : string) (c : ascii) : bool :=
  match list_ascii_of_string lo, list_ascii_of_string hi with
  | [l], [h] => (code l <=? code c) && (code c <=? code h)
  | _, _ => false
  end.
Definition digit_val (c : ascii) : option Z :=
  if between "0" "9" c then Some (code c - code "0")
  else if between "a" "f" c then Some (code c - code "a" + 10)
  else if between "A" "F" c then Some (code c - code "A" + 10)
  else None.
Definition is_digit_of (base : Z) (c : ascii) : bool :=
  match digit_val c with Some d => d <? base | None => false end.

(* the longest run of digits, and what follows *)
Fixpoint run_digits (base : Z) (acc : Z) (s : name) : Z * name :=
  match s with
  | c :: r => match digit_val c with
              | Some d => if d <? base then run_digits base (acc * base + d) r else (acc, s)
              | None => (acc, s)
              end
  | [] => (acc, [])
  end.
Definition char_in (s : string) (c : ascii) : bool := existsb (Ascii.eqb c) (list_ascii_of_string s).

(* strtoull(text, &end, 0), C11 7.22.1.4: on overflow ULLONG_MAX.  The text starts with a digit. *)
Definition strtoull (s : name) : Z * name :=
  let (v, r) :=
    match s with
    | z :: x :: d :: r =>
        if Ascii.eqb z "0" && char_in "xX" x && is_digit_of 16 d then run_digits 16 0 (d :: r)
        else if Ascii.eqb z "0" then run_digits 8 0 s else run_digits 10 0 s
    | z :: _ => if Ascii.eqb z "0" then run_digits 8 0 s else run_digits 10 0 s
    | [] => (0, [])
    end in
  (Z.min v (2 ^ 64 - 1), r).

(* lex.ll:584-602 lParseBinary: also whether the warning is given *)
Fixpoint lParseBinary (val : Z) (warned : bool) (s : name) : Z * bool * name :=
  match s with
  | c :: r =>
      if char_in "01" c
      then lParseBinary (wrapu 64 (2 * val) + (if Ascii.eqb c "0" then 0 else 1)) (warned || Z.testbit val 63) r
      else (val, warned, s)
  | [] => (val, warned, [])
  end.

Inductive token := INT8 | UINT8 | INT16 | UINT16 | INT32 | UINT32 | INT64 | UINT64.

(* lex.ll:621-635: the suffix characters *)
Record suffixes := Suf { kilo : bool; mega : bool; giga : bool; ls : nat; us : nat }.
Fixpoint scan_suffix (dots : bool) (f : suffixes) (s : name) : option suffixes :=
  match s with
  | [] => Some f
  | c :: r =>
      if char_in "k" c then scan_suffix dots (Suf true (mega f) (giga f) (ls f) (us f)) r
      else if char_in "M" c then scan_suffix dots (Suf (kilo f) true (giga f) (ls f) (us f)) r
      else if char_in "G" c then scan_suffix dots (Suf (kilo f) (mega f) true (ls f) (us f)) r
      else if char_in "lL" c then scan_suffix dots (Suf (kilo f) (mega f) (giga f) (S (ls f)) (us f)) r
      else if char_in "uU" c then scan_suffix dots (Suf (kilo f) (mega f) (giga f) (ls f) (S (us f))) r
      else if dots && char_in "." c then scan_suffix dots f r
      else None                                                  (* assertion *)
  end.

(* 643-694 *)
Definition choose_token (dots : bool) (width : Z) (f : suffixes) (v : Z) : token :=
  let u := negb (Nat.eqb (us f) 0) in
  if dots then
    if Nat.leb 2 (ls f) then if u then UINT64 else INT64
    else if Nat.eqb (ls f) 1 then if u then UINT32 else INT32
    else if Z.land v 4294967295 =? v then if u then UINT32 else INT32
    else if u then UINT64 else INT64
  else if Nat.leb 2 (ls f) then if u then UINT64 else INT64
  else if Nat.eqb (ls f) 1 then if u then UINT32 else INT32
  else if u then if v <=? 4294967295 then UINT32 else UINT64
  else if (width =? 8) && (v <=? 127) then INT8
  else if (width =? 8) && (v <=? 255) then UINT8
  else if (width =? 16) && (v <=? 32767) then INT16
  else if (width =? 16) && (v <=? 65535) then UINT16
  else if v <=? 2147483647 then INT32
  else if v <=? 4294967295 then UINT32
  else if v <=? 9223372036854775807 then INT64
  else UINT64.

(* 604-695; None is a failed assertion.  [width] is the target's data type width. *)
Definition lParseInteger (dots : bool) (width : Z) (text : name) : option (token * Z) :=
  let (v, r) :=
    match text with
    | z :: b :: s => if Ascii.eqb z "0" && Ascii.eqb b "b"
                     then (let '(v, _, r) := lParseBinary 0 false s in (v, r)) else strtoull text
    | _ => strtoull text
    end in
  match scan_suffix dots (Suf false false false 0 0) r with
  | None => None
  | Some f =>
      let v := if kilo f then wrapu 64 (v * 1024) else v in
      let v := if mega f then wrapu 64 (v * (1024 * 1024)) else v in
      let v := if giga f then wrapu 64 (v * (1024 * 1024 * 1024)) else v in
      Some (choose_token dots width f v, v)
  end.

(* parse.yy:502-533, 2559-2575: the constant *)
Definition constant (t : token) (v : Z) : Z :=
  match t with
  | INT8 => wraps 8 v | UINT8 => wrapu 8 v | INT16 => wraps 16 v | UINT16 => wrapu 16 v
  | INT32 => wraps 32 v | UINT32 => wrapu 32 v | INT64 => wraps 64 v | UINT64 => wrapu 64 v
  end.
Definition integer_literal (dots : bool) (width : Z) (text : name) : option (token * Z) :=
  option_map (fun p => (fst p, constant (fst p) (snd p))) (lParseInteger dots width text).

(** ** Strings *)

(* the run of octal digits as strtol(str, &tail, 8) reads it: overflow gives LONG_MAX *)
Definition strtol8 (s : name) : Z * name := let (v, r) := run_digits 8 0 s in (Z.min v (2 ^ 63 - 1), r).
(* strtol(str, &tail, 16) on a text that starts with 'x': nothing is converted *)
Definition strtol16 (s : name) : Z * name :=
  match s with
  | z :: x :: d :: r => if Ascii.eqb z "0" && char_in "xX" x && is_digit_of 16 d
                        then (let (v, t) := run_digits 16 0 (d :: r) in (Z.min v (2 ^ 63 - 1), t))
                        else (let (v, t) := run_digits 16 0 s in (Z.min v (2 ^ 63 - 1), t))
  | _ => let (v, t) := run_digits 16 0 s in (Z.min v (2 ^ 63 - 1), t)
  end.
Definition to_char (v : Z) : ascii := ascii_of_N (Z.to_N (wrapu 8 v)).

Definition simple_escapes : list (ascii * ascii) :=
  [("'"%char, ascii_of_N 39); (""""%char, ascii_of_N 34); ("?"%char, ascii_of_N 63); ("\"%char, ascii_of_N 92);
   ("a"%char, ascii_of_N 7); ("b"%char, ascii_of_N 8); ("f"%char, ascii_of_N 12); ("n"%char, ascii_of_N 10);
   ("r"%char, ascii_of_N 13); ("t"%char, ascii_of_N 9); ("v"%char, ascii_of_N 11)].
Fixpoint assoc (c : ascii) (l : list (ascii * ascii)) : option ascii :=
  match l with [] => None | (a, b) :: l => if Ascii.eqb c a then Some b else assoc c l end.

(* lex.ll:979-1019 lEscapeChar: the character and the rest; None: "Bad character escape sequence" *)
Definition lEscapeChar (s : name) : option (ascii * name) :=
  match s with
  | [] => None
  | c :: r =>
      if negb (Ascii.eqb c "\") then Some (c, r)
      else
        match r with
        | [] => None
        | e :: r' =>
            match assoc e simple_escapes with
            | Some x => Some (x, r')
            | None =>
                if is_digit_of 8 e then (let (v, tail) := strtol8 r in Some (to_char v, tail))
                else if Ascii.eqb e "x" then
                  (let (v, tail) := strtol16 r in Some (to_char v, tail))   (* str = tail - 1; ++str *)
                else None
            end
        end
  end.
(* 1027-1042 lStringConst: from after the opening quote.  Fuel: one step per character read is enough. *)
Fixpoint lStringConst (fuel : nat) (s : name) : option name :=
  match fuel with
  | O => None
  | S fuel =>
      match s with
      | [] => None
      | c :: _ =>
          if Ascii.eqb c """" then Some []
          else match lEscapeChar s with
               | Some (x, r) => option_map (cons x) (lStringConst fuel r)
               | None => None
               end
      end
  end.

(** ** Comments and pragmas: yyinput() gives the next character, 0 at the end of the file *)

Definition newline : ascii := ascii_of_N 10.
Definition nul : ascii := ascii_of_N 0.
(* lex.ll:720-736 lCComment, after the opening; the result is the rest of the input and the number of
   lines passed; None: "unterminated comment" *)
Fixpoint lCComment (prev : ascii) (lines : nat) (s : name) : option (name * nat) :=
  match s with
  | [] => None
  | c :: r =>
      let lines := if Ascii.eqb c newline then S lines else lines in
      if Ascii.eqb c nul then None else
      if Ascii.eqb c "/" && Ascii.eqb prev "*" then Some (r, lines) else lCComment c lines r
  end.
(* 921-931 lCppComment *)
Fixpoint lCppComment (lines : nat) (s : name) : name * nat :=
  match s with
  | [] => ([], lines)
  | c :: r => if Ascii.eqb c nul then (r, lines) else if Ascii.eqb c newline then (r, S lines) else lCppComment lines r
  end.

(* 892-895: the loop of lConsumePragma that collects the line: while (c != '\n') c = yyinput();
   [fuel] calls of yyinput; None: still running *)
Definition yyinput (s : name) : ascii * name := match s with [] => (ascii_of_N 0, []) | c :: r => (c, r) end.
Fixpoint pragma_line (fuel : nat) (c : ascii) (s : name) : option name :=
  match fuel with
  | O => None
  | S fuel => if Ascii.eqb c newline then Some s else let (c, s) := yyinput s in pragma_line fuel c s
  end.
