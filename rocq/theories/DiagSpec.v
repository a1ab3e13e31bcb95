(** What the output of the compiler must say. *)
From Coq Require Import ZArith List Bool Ascii String.
From Verif Require Import DiagModel.
Import ListNotations.
Local Open Scope list_scope.
Local Open Scope nat_scope.
Local Notation length := List.length.

(** The words of a text, separated by white space; [w] is the beginning of the first. *)
Fixpoint words_from (w : text) (s : text) : list text :=
  match s with
  | [] => match w with [] => [] | _ => [w] end
  | c :: r => if is_space c then match w with [] => [] | _ => [w] end ++ words_from [] r else words_from (w ++ [c]) r
  end.
Definition words (s : text) : list text := words_from [] s.
(** Its lines *)
Fixpoint lines_from (l : text) (s : text) : list text :=
  match s with
  | [] => [l]
  | c :: r => if Ascii.eqb c newline then l :: lines_from [] r else lines_from (l ++ [c]) r
  end.
Definition lines (s : text) : list text := lines_from [] s.
(** A line without the white space at its end *)
Definition trim (l : text) : text := rev (skip_spaces (rev l)).

Definition no_space (s : text) : Prop := Forall (fun c => is_space c = false) s.


(** ** Which messages are printed, and when the compiler fails *)
Definition flag_eqb (a b : flag) : bool :=
  match a, b with
  | Woff, Woff | Werror, Werror | WnoPerf, WnoPerf | Quiet, Quiet => true
  | ErrorLimit n, ErrorLimit m => Z.eqb n m
  | _, _ => false
  end.
Definition given (fl : list flag) (f : flag) : bool := existsb (flag_eqb f) fl.
(** The limit given last; a negative one is an error of the command line. *)
Fixpoint limit_of (fl : list flag) : option Z :=
  match fl with
  | [] => None
  | ErrorLimit n :: r => match limit_of r with Some m => Some m | None => if (0 <=? n)%Z then Some n else None end
  | _ :: r => limit_of r
  end.
Definition is_perf (f : finding) : bool := match f_sev f with SPerf => true | _ => false end.
(** "#pragma ignore warning" is in front of the line: all warnings, or only performance warnings. *)
Definition pragma_off (ig : ignored) (f : finding) : bool :=
  existsb (fun '(line, file, only_perf) => Z.eqb line (p_last (f_pos f)) && text_eqb file (p_name (f_pos f)) && (negb only_perf || is_perf f)) ig.
(** The standard library gets no performance warnings. *)
Definition of_library (f : finding) : bool := ends_with (of_string "stdlib.ispc") (p_name (f_pos f)).
(** Performance warnings are on. *)
Definition perf_on (fl : list flag) : bool := negb (given fl WnoPerf) && negb (given fl Woff).
(** The finding makes the compiler fail. *)
Definition fatal (fl : list flag) (ig : ignored) (f : finding) : bool :=
  match f_sev f with
  | SError => true
  | SWarning => given fl Werror && negb (pragma_off ig f)
  | SPerf => given fl Werror && negb (pragma_off ig f) && perf_on fl && negb (of_library f) && negb (given fl Quiet)
  end.
(** The finding is shown to the user; [before]: those before it. *)
Definition shown (fl : list flag) (ig : ignored) (before : list finding) (f : finding) : bool :=
  negb (given fl Quiet) &&
  match f_sev f with
  | SError => match limit_of fl with None => true | Some n => (Z.of_nat (length (filter (fatal fl ig) before)) <? n)%Z end
  | SWarning => negb (given fl Woff) && negb (pragma_off ig f)
  | SPerf => perf_on fl && negb (of_library f) && negb (pragma_off ig f)
  end.
Definition label (fl : list flag) (f : finding) : text :=
  of_string match f_sev f with
            | SError => "Error"
            | SWarning => if given fl Werror then "Error" else "Warning"
            | SPerf => "Performance Warning"
            end.
(** file:line:column: label: message *)
Definition message (decimal : Z -> text) (fl : list flag) (f : finding) : text :=
  let p := f_pos f in
  (if (p_first p =? 0)%Z then []
   else p_name p ++ of_string ":" ++ decimal (p_first p) ++ of_string ":" ++ decimal (p_column p) ++ of_string ": ")
  ++ label fl f ++ of_string ": " ++ f_msg f.
