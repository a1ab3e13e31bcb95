(** Collecting the compiler's arguments from the command line, response files and ISPC_ARGS:
    src/args.cpp:288-452 (ArgFactory, lAddArgsFromFactory, lAddSingleArg, GetAllArgs).

    Characters are byte values.  isspace is that of the C locale; it is called with a plain char, so that
    its argument is outside its domain for bytes of 128 and more (undefined in C; glibc answers no, which is
    what is modelled). *)
From Coq Require Import ZArith List Bool.
Import ListNotations.
Local Open Scope Z_scope.

Definition chr := Z.
Definition text := list chr.

Definition isspace (c : chr) : bool := (c =? 32) || ((9 <=? c) && (c <=? 13)).

(** args.cpp:308-311: white-space before an argument is consumed. *)
Fixpoint skip (s : text) : text :=
  match s with
  | c :: r => if isspace c then skip r else s
  | [] => []
  end.

(** args.cpp:319-332: the characters of an argument, and what is left after the character that ends it.  The
    end of the source is given as a NUL character. *)
Fixpoint collect (dq sq : bool) (s : text) : text * text :=
  match s with
  | [] => ([], [])
  | c :: r =>
      if (c =? 0) || (isspace c && negb dq && negb sq) then ([], r)
      else if (c =? 34) && negb sq then collect (negb dq) sq r
      else if (c =? 39) && negb dq then collect dq (negb sq) r
      else let '(a, r') := collect dq sq r in (c :: a, r')
  end.

(** args.cpp:301-335 GetNextArg *)
Definition next_arg (s : text) : option (text * text) :=
  match skip s with
  | [] => None
  | c :: r => if c =? 0 then None else Some (collect false false (c :: r))
  end.

(** args.cpp:381-389 lAddArgsFromFactory, the arguments of a source before they are looked at.  [fuel] bounds
    the number of arguments; every argument takes at least one character. *)
Fixpoint args_of (fuel : nat) (s : text) : list text :=
  match fuel with
  | O => []
  | S fuel => match next_arg s with Some (a, r) => a :: args_of fuel r | None => [] end
  end.
Definition split (s : text) : list text := args_of (length s) s.

(** args.cpp:355-372 StringArgFactory: a string ends at its NUL. *)
Fixpoint c_string (s : text) : text :=
  match s with
  | [] => []
  | c :: r => if c =? 0 then [] else c :: c_string r
  end.

(** args.cpp:404-426 lAddSingleArg.  [fs] gives the contents of the files that can be read, [n] is the number
    of files that can still be opened; beyond it fopen fails (POSIX: EMFILE).  The files that are being read
    stay open while the files they name are read. *)
Fixpoint add_single (fs : text -> option text) (n : nat) (a : text) : list text :=
  match a with
  | [] => [a]
  | c :: name =>
      if c =? 64 then
        match n with
        | O => [a]
        | S n => match fs name with
                 | Some s => flat_map (add_single fs n) (split s)
                 | None => [a]
                 end
        end
      else [a]
  end.

(** args.cpp:428-444 GetAllArgs *)
Definition get_all (fs : text -> option text) (n : nat) (argv : list text) (env : option text) : list text :=
  flat_map (add_single fs n) argv ++
  match env with Some s => flat_map (add_single fs n) (split (c_string s)) | None => [] end.
