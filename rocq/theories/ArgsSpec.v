(** How the arguments of the compiler are documented (docs/ispc.rst, "Other ways of passing arguments"). *)
From Coq Require Import ZArith List Bool.
From Verif Require Import ArgsModel.
Import ListNotations.
Local Open Scope Z_scope.

(** The white-space characters: space, tab, newline, vertical tab, form feed, carriage return. *)
Definition space (c : chr) : Prop := In c [32; 9; 10; 11; 12; 13].
Definition spaces (s : text) : Prop := Forall space s.

(** [fields s l]: the text [s] consists of the arguments [l], separated by one or more white-space characters,
    possibly with more of them before the first and after the last. *)
Inductive fields : text -> list text -> Prop :=
| F_nil s : spaces s -> fields s []
| F_last s a s' : spaces s -> a <> [] -> Forall (fun c => ~ space c) a -> spaces s' -> fields (s ++ a ++ s') [a]
| F_cons s a s' r b l : spaces s -> a <> [] -> Forall (fun c => ~ space c) a -> spaces s' -> s' <> [] ->
    fields r (b :: l) -> fields (s ++ a ++ s' ++ r) (a :: b :: l).

(** Text without quotation marks and NUL characters. *)
Definition plain (s : text) : Prop := Forall (fun c => c <> 34 /\ c <> 39 /\ c <> 0) s.

(** A way to write an argument with the quotation marks the program understands: apostrophes in double
    quotes, other characters in single quotes. *)
Definition quote_chr (c : chr) : text := if c =? 39 then [34; 39; 34] else [39; c; 39].
Definition quote (a : text) : text := match a with [] => [39; 39] | _ => flat_map quote_chr a end.

(** [expands fs a l d]: replacing every argument of the form @filename of a readable file by the arguments in
    the file, starting with [a] and going on in the files, gives the arguments [l]; files are nested at most [d]
    deep.  [words] relates a text and its arguments. *)
Inductive expands (words : text -> list text -> Prop) (fs : text -> option text) : text -> list text -> nat -> Prop :=
| E_other a d : (forall f c, a = 64 :: f -> fs f <> Some c) -> expands words fs a [a] d
| E_file f c ws ls d : fs f = Some c -> words c ws -> expands_all words fs ws ls d ->
    expands words fs (64 :: f) ls (S d)
with expands_all (words : text -> list text -> Prop) (fs : text -> option text) : list text -> list text -> nat -> Prop :=
| EA_nil d : expands_all words fs [] [] d
| EA_cons a l ws ls d : expands words fs a l d -> expands_all words fs ws ls d ->
    expands_all words fs (a :: ws) (l ++ ls) d.
