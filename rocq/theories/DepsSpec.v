(** How make, and a reader of the flat list, understand the file. *)
From Coq Require Import ZArith List Bool Ascii String.
From Verif Require Import DepsModel.
Import ListNotations.
Local Open Scope list_scope.

(** A backslash at the end of a line joins it with the next one. *)
Fixpoint join (s : text) : text :=
  match s with
  | c :: (d :: r) as t => if Ascii.eqb c backslash && Ascii.eqb d newline then blank :: join r else c :: join t
  | _ => s
  end.
Definition is_blank (c : ascii) : bool := Ascii.eqb c blank || Ascii.eqb c tab || Ascii.eqb c newline.
Fixpoint words_from (w : text) (s : text) : list text :=
  match s with
  | [] => match w with [] => [] | _ => [w] end
  | c :: r => if is_blank c then match w with [] => [] | _ => [w] end ++ words_from [] r else words_from (w ++ [c]) r
  end.
(** The target stands before the first colon. *)
Fixpoint split_colon (s : text) : option (text * text) :=
  match s with
  | [] => None
  | c :: r => if Ascii.eqb c ":" then Some ([], r) else option_map (fun '(a, b) => (c :: a, b)) (split_colon r)
  end.
(** A rule as make reads it: target and prerequisites.  Names with characters that mean something to make are not covered. *)
Definition make_rule (s : text) : option (text * list text) :=
  option_map (fun '(t, p) => (t, words_from [] p)) (split_colon (join s)).
(** Characters without a meaning for make *)
Definition plain_char (c : ascii) : Prop :=
  printable c = true /\ ~ In c (list_ascii_of_string " \:#$%*?[]~;=|&()'`<>!{}" ++ [quote]).
Definition plain (s : text) : Prop := s <> [] /\ Forall plain_char s.
(** Names the preprocessor writes for what is not a file, and the names of the library *)
Definition library (s : text) : Prop := In s (map of_string ["stdlib.ispc"; "/core.isph"; "/stdlib.isph"]%string).
(** Lines of the flat list *)
Fixpoint lines_from (l : text) (s : text) : list text :=
  match s with
  | [] => []
  | c :: r => if Ascii.eqb c newline then l :: lines_from [] r else lines_from (l ++ [c]) r
  end.
