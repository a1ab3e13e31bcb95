(** A syntactic check under which the compiler never runs code that is unsafe with an
    all-off mask with no lane on, and a gang terminates if its instances do.

    Nothing here models code: it is part of the specification.  The check follows one
    question, "is some lane of the function's mask surely on here?", through the program.
    A call, a print, an assignment to a uniform variable and a loop with uniform control
    flow are accepted only where the answer is yes.  The places where the answer is no, and
    the compiler nevertheless goes on, are the findings in DESIGN.md (C03, C13). *)
From Coq Require Import ZArith List Bool Arith.
From Verif Require Import Bits SpmdModel.
Import ListNotations.

(** Is there a return under varying control flow?  [deep]: we already are. *)
Fixpoint mret (deep : bool) (s : stmt) : bool :=
  match s with
  | SReturn _ => deep
  | SSeq a b => mret deep a || mret deep b
  | SIf _ (TU _) a b => mret deep a || mret deep b
  | SIf _ (TV _) a b => mret true a || mret true b
  | SDo _ body t => mret (deep || negb (uniform_cf t body)) body
  | SFor _ i t st body =>
      let dp := deep || negb (uniform_cf t body) in mret dp i || mret dp st || mret dp body
  | SSwitch t ss => mret_secs (deep || negb (uniform_cf_switch t ss)) ss
  | _ => false
  end
with mret_secs (deep : bool) (ss : secs) : bool :=
  match ss with
  | SNil => false
  | SSec _ b r => mret deep b || mret_secs deep r
  end.

(** Can [s] switch lanes off for the code that follows it, by a break, continue or return
    that is not a plain jump?  [jb]: a break or continue here is a plain jump, because no
    varying `if` lies between it and its loop or switch. *)
Fixpoint esc (jb : bool) (s : stmt) : bool :=
  match s with
  | SBreak | SContinue => negb jb
  | SReturn _ => true
  | SSeq a b => esc jb a || esc jb b
  | SIf _ (TU _) a b => esc jb a || esc jb b
  | SIf _ (TV _) a b => esc false a || esc false b
  | SDo _ body _ => mret true body
  | SFor _ i _ st body => esc true i || esc true st || mret true body
  | SSwitch _ ss => mret_secs true ss
  | _ => false
  end.

(** Is a lane surely on after [s]?  Yes at depth 0, where the function has not returned;
    yes directly in the body of a varying loop that started with a lane on ([jd]), where
    the compiler leaves the body when no lane is left; otherwise only if one was on before
    [s] and [s] cannot switch lanes off. *)
Definition after (ne jb : bool) (jd : option nat) (d : nat) (s : stmt) : bool :=
  (d =? 0) || (match jd with Some dl => d =? dl | None => false end) || (ne && negb (esc jb s)).

Definition jdof (b : bool) (d : nat) : option nat := if b then Some d else None.

(** [g_on]: all lanes are on in the function's mask.  [g_ok]: the functions that may be
    called. *)
Record gcx := { g_on : bool; g_ok : nat -> bool }.

(** [fa]: see above.  [nr]: the function has no return under
    varying control flow.  [ne]: a lane is surely on. *)
Fixpoint guarded (fa : gcx) (nr ne jb : bool) (jd : option nat) (d : nat) (s : stmt) : bool :=
  match s with
  | SSkip | SDecl _ _ | SUDecl _ _ | SAssign _ _ | SBreak | SContinue | SReturn _ => true
  | SUAssign _ _ | SEmit _ _ => ne
  | SCall _ f _ _ => ne && g_ok fa f
  | SSeq a b => guarded fa nr ne jb jd d a && guarded fa nr (after ne jb jd d a) jb jd d b
  | SIf _ (TU _) a b => guarded fa nr ne jb jd d a && guarded fa nr ne jb jd d b
  | SIf coh (TV _) a b =>
      (* sides that are safe may be run with no lane on *)
      let ne1 := coh || negb (safe a && safe b) in
      guarded fa nr ne1 false jd (S d) a && guarded fa nr ne1 false jd (S d) b
  | SDo _ body t =>
      if uniform_cf t body
      then ne && ((d =? 0) || negb (mret true body)) && guarded fa nr true true None d body
      else guarded fa nr ne true (jdof (nr && ne) (S d)) (S d) body
  | SFor _ i t st body =>
      if uniform_cf t body
      then ne && ((d =? 0) || negb (esc true i || esc true st || mret true body)) &&
           guarded fa nr true true None d i && guarded fa nr true true None d st &&
           guarded fa nr true true None d body
      else guarded fa nr ne true None (S d) i && guarded fa nr false true None (S d) st &&
           guarded fa nr true true (jdof nr (S d)) (S d) body
  | SSwitch (TU e) ss =>
      if uniform_cf_switch (TU e) ss then guarded_secs fa nr ne true None d ss
      else guarded_secs fa nr ne true (jdof (nr && ne) (S d)) (S d) ss
  | SSwitch (TV _) ss => guarded_vsecs fa nr (S d) ss
  end
with guarded_secs (fa : gcx) (nr ne jb : bool) (jd : option nat) (d : nat) (ss : secs) : bool :=
  match ss with
  | SNil => true
  | SSec _ b r =>
      guarded fa nr ne jb jd d b && guarded_secs fa nr (ne && after ne jb jd d b) jb jd d r
  end
with guarded_vsecs (fa : gcx) (nr : bool) (d : nat) (ss : secs) : bool :=
  match ss with
  | SNil => true
  | SSec _ b r =>
      (* the mask is tested at the label of an unsafe section, but without the function mask *)
      guarded fa nr (g_on fa && negb (safe b)) false None d b && guarded_vsecs fa nr d r
  end.

Definition guarded_fun (fa : gcx) (fd : fundef) : bool :=
  guarded fa (negb (mret false (f_body fd))) true true None 0 (f_body fd).

(** The functions [ok] may be called with any non-empty mask. *)
Definition guarded_prog (ok : nat -> bool) (fs : list fundef) : bool :=
  forallb (fun f => negb (ok f) ||
             match nth_error fs f with
             | Some fd => guarded_fun {| g_on := false; g_ok := ok |} fd
             | None => true
             end) (seq 0 (length fs)).

(** All functions. *)
Definition any_fun : nat -> bool := fun _ => true.

(** A program for which the function [f] may be entered with all lanes on ([on]) or with any
    non-empty mask, and the functions [ok] called by it and each other. *)
Definition guarded_call (ok : nat -> bool) (on : bool) (fs : list fundef) (f : nat) : bool :=
  guarded_prog ok fs &&
  match nth_error fs f with
  | Some fd => guarded_fun {| g_on := on; g_ok := ok |} fd
  | None => false
  end.
