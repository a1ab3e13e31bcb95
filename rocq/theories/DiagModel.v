(** Messages of the compiler: src/util.cpp 129-137, 199-303, 312-442, and the command-line options and the pragma that
    control them. *)
From Coq Require Import ZArith List Bool Ascii String.
Import ListNotations.
Local Open Scope list_scope.
Local Open Scope nat_scope.
Local Notation length := List.length.

Definition text := list ascii.
Definition newline : ascii := "010".
Definition space : ascii := "032".
Definition escape : ascii := "027".
Definition letter_m : ascii := "109".

(** isspace in the C locale *)
Definition is_space (c : ascii) : bool :=
  let n := nat_of_ascii c in (9 <=? n) && (n <=? 13) || (n =? 32).

(** ** Breaking a message into lines *)

(** util.cpp 132-137 lFindWordEnd: the word, and what follows it *)
Fixpoint take_word (s : text) : text * text :=
  match s with
  | [] => ([], [])
  | c :: r => if is_space c then ([], s) else let (w, r) := take_word r in (c :: w, r)
  end.
(** 267-269 *)
Fixpoint skip_spaces (s : text) : text :=
  match s with
  | [] => []
  | c :: r => if is_space c then skip_spaces r else s
  end.
(** 260-263 *)
Fixpoint take_blanks (s : text) : text * text :=
  match s with
  | [] => ([], [])
  | c :: r => if Ascii.eqb c space then let (b, r) := take_blanks r in (c :: b, r) else ([], s)
  end.
(** 247-249, after the first character *)
Fixpoint take_escape (s : text) : text * text :=
  match s with
  | [] => ([], [])
  | c :: r => if Ascii.eqb c letter_m then ([], s) else let (e, r) := take_escape r in (c :: e, r)
  end.
Definition spaces (n : nat) : text := repeat space n.

(** 242-300: the loop.  The message has no null characters. *)
Fixpoint wrap (fuel width indent column : nat) (s : text) : text :=
  match fuel with
  | O => []
  | S fuel =>
      let word :=
        let s := skip_spaces s in
        match s with
        | [] => [newline]
        | _ =>
            let (w, r) := take_word s in
            if (indent <? column) && (width <? column + length w)
            then newline :: spaces indent ++ w ++ space :: wrap fuel width indent (indent + length w + 1) r
            else w ++ space :: wrap fuel width indent (column + length w + 1) r
        end in
      match s with
      | c :: r =>
          if Ascii.eqb c escape then let (e, r) := take_escape r in (c :: e) ++ wrap fuel width indent column r
          else if Ascii.eqb c newline then let (b, r) := take_blanks r in newline :: spaces indent ++ b ++ wrap fuel width indent indent r
          else word
      | [] => word
      end
  end.
(** 221-303 PrintWithWordBreaks, hosts other than Windows; [columns] is the width of the terminal. *)
Definition print_with_word_breaks (s : text) (indent columns : nat) : text :=
  wrap (S (length s)) (Nat.max 40 (columns - 2)) indent 0 s.

(** ** Which messages are printed *)

(** SourcePos, ispc.h; the columns after the first are not modelled *)
Record pos := { p_name : text; p_first : Z; p_last : Z; p_column : Z }.
Record opts := { o_quiet : bool; o_woff : bool; o_werror : bool; o_perf : bool; o_limit : option Z }.

(** args.cpp 992-1013, 1090; ispc.cpp 3425-3444 for the defaults *)
Inductive flag := Woff | Werror | WnoPerf | Quiet | ErrorLimit (n : Z).
Definition default_opts : opts := {| o_quiet := false; o_woff := false; o_werror := false; o_perf := true; o_limit := None |}.
Definition set_flag (o : opts) (f : flag) : opts :=
  match f with
  | Woff => {| o_quiet := o_quiet o; o_woff := true; o_werror := o_werror o; o_perf := false; o_limit := o_limit o |}
  | Werror => {| o_quiet := o_quiet o; o_woff := o_woff o; o_werror := true; o_perf := o_perf o; o_limit := o_limit o |}
  | WnoPerf => {| o_quiet := o_quiet o; o_woff := o_woff o; o_werror := o_werror o; o_perf := false; o_limit := o_limit o |}
  | Quiet => {| o_quiet := true; o_woff := o_woff o; o_werror := o_werror o; o_perf := o_perf o; o_limit := o_limit o |}
  | ErrorLimit n => if (0 <=? n)%Z
                    then {| o_quiet := o_quiet o; o_woff := o_woff o; o_werror := o_werror o; o_perf := o_perf o; o_limit := Some n |} else o
  end.
Definition options (fs : list flag) : opts := fold_left set_flag fs default_opts.

Fixpoint text_eqb (a b : text) : bool :=
  match a, b with
  | [], [] => true
  | x :: a, y :: b => Ascii.eqb x y && text_eqb a b
  | _, _ => false
  end.

(** What the compiler finds while it works on one module: an error, a warning, a performance warning. *)
Inductive severity := SError | SWarning | SPerf.
Record finding := { f_sev : severity; f_pos : pos; f_msg : text }.
(** g->turnOffWarnings: line, file, and whether only performance warnings are turned off *)
Definition ignored := list (Z * text * bool).
Fixpoint lookup (ig : ignored) (line : Z) (file : text) : option bool :=
  match ig with
  | [] => None
  | (l, f, only_perf) :: r => if (l =? line)%Z && text_eqb f file then Some only_perf else lookup r line file
  end.

Record state := { n_errors : Z; printed : list text }.
Definition start : state := {| n_errors := 0; printed := [] |}.
Definition count (s : state) : state := {| n_errors := n_errors s + 1; printed := printed s |}.

Definition of_string (s : string) : text := list_ascii_of_string s.
Definition ends_with (suffix s : text) : bool :=
  (length suffix <=? length s) && text_eqb (skipn (length s - length suffix) s) suffix.

Section Text.
(** printf's %d *)
Variable decimal : Z -> text.

(** 312-363 lPrint: the message without colours, and without the lines of the source file that follow it.  [printed]: the
    messages printed so far; one that was printed before is not printed again. *)
Definition heading (kind : text) (p : pos) (msg : text) : text :=
  if (p_first p =? 0)%Z then kind ++ of_string ": " ++ msg
  else p_name p ++ of_string ":" ++ decimal (p_first p) ++ of_string ":" ++ decimal (p_column p) ++ of_string ": " ++ kind ++ of_string ": " ++ msg.
Definition print (kind : text) (p : pos) (msg : text) (s : state) : state :=
  let t := heading kind p msg in
  if existsb (text_eqb t) (printed s) then s else {| n_errors := n_errors s; printed := printed s ++ [t] |}.

(** 365-380 Error, 393-414 Warning, 416-442 PerformanceWarning.  The module exists. *)
Definition report (o : opts) (ig : ignored) (f : finding) (s : state) : state :=
  let p := f_pos f in
  match f_sev f with
  | SError =>
      let s := count s in
      if match o_limit o with Some n => (n <=? n_errors s - 1)%Z | None => false end then s
      else if o_quiet o then s
      else print (of_string "Error") p (f_msg f) s
  | SWarning =>
      if match lookup ig (p_last p) (p_name p) with Some only_perf => negb only_perf | None => false end then s
      else
        let s := if o_werror o then count s else s in
        if o_woff o || o_quiet o then s
        else print (of_string (if o_werror o then "Error" else "Warning")) p (f_msg f) s
  | SPerf =>
      if negb (o_perf o) || ends_with (of_string "stdlib.ispc") (p_name p) || o_quiet o then s
      else if match lookup ig (p_last p) (p_name p) with Some _ => true | None => false end then s
      else
        let s := if o_werror o then count s else s in
        print (of_string "Performance Warning") p (f_msg f) s
  end.
Definition report_all (o : opts) (ig : ignored) (fs : list finding) : state := fold_left (fun s f => report o ig f s) fs start.
End Text.
(** module.cpp 289, 450-455, 2552-2558: nothing is written if there were errors. *)
Definition fails (s : state) : bool := (0 <? n_errors s)%Z.
