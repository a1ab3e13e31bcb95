(** What one program instance does when it runs on its own.

    docs/ispc.rst 2258-2264: "program instances in the gang" execute as if each ran the
    program serially, with the ordinary meaning of C's control flow.  [lexec] is that
    meaning for the language of [SpmdModel]: one lane, scalar variables, no masks.  Every
    instance has its own copy of every variable, uniform ones included.

    The file also has the static restriction [chk] under which gang and instances are
    proved to agree.  Each clause of it that is not ordinary scoping corresponds to a
    construct that the compiler accepts but executes differently from the instances; the
    findings in DESIGN.md name them and the `_refuted` theorems exhibit them. *)
From Coq Require Import ZArith List Bool Arith.
From Verif Require Import Bits SpmdModel.
Import ListNotations.

(** ** Serial execution of one program instance *)

Record lst := {
  l_V : nat -> Z;
  l_U : nat -> Z;
  l_G : gkey -> Z;
  l_rv : Z;
  l_tr : list (nat * Z)
}.

Inductive lout := LNorm | LBrk | LCont | LRet.

Fixpoint leval (l : lane) (s : lst) (e : vexpr) : Z :=
  match e with
  | XU e => ueval (l_U s) e
  | XV (VLoc x) => l_V s x
  | XV (VGlob st x) => l_G s (st, x)
  | XIdx => Z.of_nat l
  | XOp o a b => bop o (leval l s a) (leval l s b)
  end.

Definition ltest (l : lane) (s : lst) (t : test) : bool :=
  match t with TU e => is_true (ueval (l_U s) e) | TV e => is_true (leval l s e) end.

Definition lassign (s : lst) (x : var) (z : Z) : lst :=
  match x with
  | VLoc y => {| l_V := upd (l_V s) y z; l_U := l_U s; l_G := l_G s; l_rv := l_rv s; l_tr := l_tr s |}
  | VGlob st y =>
      {| l_V := l_V s; l_U := l_U s; l_G := (fun k => if gkey_eqb k (st, y) then z else l_G s k);
         l_rv := l_rv s; l_tr := l_tr s |}
  end.

Definition luassign (s : lst) (u : nat) (z : Z) : lst :=
  {| l_V := l_V s; l_U := upd (l_U s) u z; l_G := l_G s; l_rv := l_rv s; l_tr := l_tr s |}.

Definition lemit (s : lst) (k : nat) (z : Z) : lst :=
  {| l_V := l_V s; l_U := l_U s; l_G := l_G s; l_rv := l_rv s; l_tr := l_tr s ++ [(k, z)] |}.

Definition lreturn (s : lst) (z : Z) : lst :=
  {| l_V := l_V s; l_U := l_U s; l_G := l_G s; l_rv := z; l_tr := l_tr s |}.

(** C's switch: jump to the label equal to the operand, else to `default`, else past the
    switch. *)
Definition switch_operand (l : lane) (s : lst) (t : test) : Z :=
  match t with TU e => ueval (l_U s) e | TV e => leval l s e end.

Fixpoint case_section (v : Z) (ss : secs) : option secs :=
  match ss with
  | SNil => None
  | SSec (Some c) _ r => if (v =? c)%Z then Some ss else case_section v r
  | SSec None _ r => case_section v r
  end.

Fixpoint default_section (ss : secs) : secs :=
  match ss with
  | SNil => SNil
  | SSec None _ _ => ss
  | SSec (Some _) _ r => default_section r
  end.

Definition c_switch (v : Z) (ss : secs) : secs :=
  match case_section v ss with Some r => r | None => default_section ss end.

Fixpoint lexec (n : nat) (fs : list fundef) (l : lane) (s : stmt) (st : lst) {struct n}
  : option (lout * lst) :=
  match n with
  | O => None
  | S n =>
    match s with
    | SSkip => Some (LNorm, st)
    | SSeq a b =>
        match lexec n fs l a st with
        | Some (LNorm, st1) => lexec n fs l b st1
        | r => r
        end
    | SDecl x e => Some (LNorm, lassign st (VLoc x) (leval l st e))
    | SUDecl u e | SUAssign u e => Some (LNorm, luassign st u (ueval (l_U st) e))
    | SAssign x e => Some (LNorm, lassign st x (leval l st e))
    | SEmit k e => Some (LNorm, lemit st k (leval l st e))
    | SIf _ t a b => lexec n fs l (if ltest l st t then a else b) st
    | SDo _ body t => lbody n fs l t SSkip body st
    | SFor _ i t step body =>
        match lexec n fs l i st with
        | Some (LNorm, st1) => ltop n fs l t step body st1
        | r => r
        end
    | SSwitch t ss =>
        match lrun n fs l (c_switch (switch_operand l st t) ss) st with
        | Some (LBrk, st1) => Some (LNorm, st1)
        | r => r
        end
    | SBreak => Some (LBrk, st)
    | SContinue => Some (LCont, st)
    | SReturn e => Some (LRet, lreturn st (leval l st e))
    | SCall x f us vs =>
        match nth_error fs f with
        | None => None
        | Some fd =>
            match lexec n fs l (f_body fd)
                    {| l_V := bind 0 (map (leval l st) vs) (fun _ => 0%Z);
                       l_U := bind 0 (map (ueval (l_U st)) us) (fun _ => 0%Z);
                       l_G := l_G st; l_rv := 0; l_tr := l_tr st |} with
            | Some (LNorm, st1) | Some (LRet, st1) =>
                Some (LNorm,
                  lassign {| l_V := l_V st; l_U := l_U st; l_G := l_G st1; l_rv := l_rv st;
                             l_tr := l_tr st1 |} x (l_rv st1))
            | _ => None
            end
        end
    end
  end

(** while / for: test, then body and step *)
with ltop (n : nat) (fs : list fundef) (l : lane) (t : test) (step body : stmt) (st : lst) {struct n}
  : option (lout * lst) :=
  match n with
  | O => None
  | S n => if ltest l st t then lbody n fs l t step body st else Some (LNorm, st)
  end

with lbody (n : nat) (fs : list fundef) (l : lane) (t : test) (step body : stmt) (st : lst) {struct n}
  : option (lout * lst) :=
  match n with
  | O => None
  | S n =>
    match lexec n fs l body st with
    | Some (LNorm, st1) | Some (LCont, st1) =>
        match lexec n fs l step st1 with
        | Some (LNorm, st2) => ltop n fs l t step body st2
        | r => r
        end
    | Some (LBrk, st1) => Some (LNorm, st1)
    | r => r
    end
  end

(** consecutive sections of a switch, falling through *)
with lrun (n : nat) (fs : list fundef) (l : lane) (ss : secs) (st : lst) {struct n}
  : option (lout * lst) :=
  match n with
  | O => None
  | S n =>
    match ss with
    | SNil => Some (LNorm, st)
    | SSec _ body r =>
        match lexec n fs l body st with
        | Some (LNorm, st1) => lrun n fs l r st1
        | x => x
        end
    end
  end.

(** Calling function [f] in one instance. *)
Definition lane_call (n : nat) (fs : list fundef) (l : lane) (f : nat) (us vs : list Z) (G : gkey -> Z)
  : option (Z * (gkey -> Z) * list (nat * Z)) :=
  match nth_error fs f with
  | None => None
  | Some fd =>
      match lexec n fs l (f_body fd)
              {| l_V := bind 0 vs (fun _ => 0%Z); l_U := bind 0 us (fun _ => 0%Z); l_G := G;
                 l_rv := 0; l_tr := [] |} with
      | Some (LNorm, st) | Some (LRet, st) => Some (l_rv st, l_G st, l_tr st)
      | _ => None
      end
  end.

(** The effects of lane [l] in the gang's list of effects, in order. *)
Fixpoint lane_trace (l : lane) (tr : list (nat * (lane -> option Z))) : list (nat * Z) :=
  match tr with
  | [] => []
  | (k, f) :: r => match f l with Some z => (k, z) :: lane_trace l r | None => lane_trace l r end
  end.

(** ** Programs for which gang and instances agree *)

(** Variables in scope: varying locals, uniform locals. *)
Record scope := { sc_v : list nat; sc_u : list nat }.

Definition mem (x : nat) (l : list nat) : bool := existsb (Nat.eqb x) l.

Fixpoint uexpr_ok (D : scope) (e : uexpr) : bool :=
  match e with
  | UConst _ => true
  | UVar u => mem u (sc_u D)
  | UOp _ a b => uexpr_ok D a && uexpr_ok D b
  end.

Fixpoint vexpr_ok (D : scope) (e : vexpr) : bool :=
  match e with
  | XU e => uexpr_ok D e
  | XV (VLoc x) => mem x (sc_v D)
  | XV (VGlob _ _) => true
  | XIdx => true
  | XOp _ a b => vexpr_ok D a && vexpr_ok D b
  end.

Definition test_ok (D : scope) (t : test) : bool :=
  match t with TU e => uexpr_ok D e | TV e => vexpr_ok D e end.

(** Depth (number of enclosing varying constructs) at which each uniform local of a function
    is declared; the counterpart of [decl_depths] for uniform variables. *)
Fixpoint udecl_depths (d : nat) (s : stmt) : list (nat * nat) :=
  match s with
  | SSeq a b => udecl_depths d a ++ udecl_depths d b
  | SUDecl u _ => [(u, d)]
  | SIf _ (TU _) a b => udecl_depths d a ++ udecl_depths d b
  | SIf _ (TV _) a b => udecl_depths (S d) a ++ udecl_depths (S d) b
  | SDo _ body t => udecl_depths (if uniform_cf t body then d else S d) body
  | SFor _ i t st body =>
      let d' := if uniform_cf t body then d else S d in
      udecl_depths d' i ++ udecl_depths d' st ++ udecl_depths d' body
  | SSwitch t ss => udecl_depths_secs (if uniform_cf_switch t ss then d else S d) ss
  | _ => []
  end
with udecl_depths_secs (d : nat) (ss : secs) : list (nat * nat) :=
  match ss with
  | SNil => []
  | SSec _ body rest => udecl_depths d body ++ udecl_depths_secs d rest
  end.

Definition udep_of (body : stmt) : nat -> nat := lookup_depth (udecl_depths 0 body).

(** Does the statement contain a `continue` of the enclosing loop? *)
Fixpoint has_continue (s : stmt) : bool :=
  match s with
  | SSeq a b | SIf _ _ a b => has_continue a || has_continue b
  | SContinue => true
  | SSwitch _ ss => has_continue_secs ss
  | _ => false
  end
with has_continue_secs (ss : secs) : bool :=
  match ss with
  | SNil => false
  | SSec _ b r => has_continue b || has_continue_secs r
  end.

(** The innermost enclosing loop or switch, as the checks below need it: is it a loop, is it
    compiled as uniform control flow, the varying depth of its body, does it have a
    `continue` (and is varying), is a switch operand scalar, and the variables that must
    still be right after a break / at the step after a continue. *)
Record kinfo := {
  k_loop : bool;
  k_uni : bool;
  k_dl : nat;
  k_hasc : bool;
  k_sc : bool;
  k_db : scope;
  k_dc : scope
}.

(** Variables that lanes waiting at a `continue` rely on. *)
Record frozen := { fz_v : list nat; fz_u : list nat }.

Section Check.
(** depth of varying locals, of uniform locals *)
Variables (dv du : nat -> nat).

(** Assigning a varying symbol at depth [d].
    - a local that was declared at this very depth is stored with an all-on mask: it must not
      be one that lanes which executed `continue` will read (finding x);
    - a file-scope variable that is not `static` is stored with an all-on mask at depth 0
      (finding y). *)
Definition assign_ok (d : nat) (F : frozen) (D : scope) (x : var) : bool :=
  match x with
  | VLoc x => mem x (sc_v D) && (dv x <=? d) && negb ((dv x =? d) && mem x (fz_v F))
  | VGlob false _ => negb (0 =? d)
  | VGlob true _ => true
  end.

Definition jump_break (k : kinfo) (d : nat) : bool := (d =? k_dl k) && (k_loop k || k_sc k).

(** Locals of the scope [D] declared at depth [d]. *)
Definition at_depth (d : nat) (D : scope) : frozen :=
  {| fz_v := filter (fun x => dv x =? d) (sc_v D); fz_u := filter (fun u => du u =? d) (sc_u D) |}.

Definition add_frozen (A B : frozen) : frozen :=
  {| fz_v := fz_v A ++ fz_v B; fz_u := fz_u A ++ fz_u B |}.

Fixpoint nodupZ (l : list Z) : bool :=
  match l with
  | [] => true
  | c :: r => negb (existsb (Z.eqb c) r) && nodupZ r
  end.

Fixpoint defaults (ss : secs) : nat :=
  match ss with
  | SNil => 0
  | SSec None _ r => S (defaults r)
  | SSec (Some _) _ r => defaults r
  end.

(** [chk K d F D s]: [s] occurs at varying depth [d] in the loop or switch [K], with scope
    [D]; the result is the scope after it.  Beyond scoping (variables are declared before
    use, break / continue inside a loop or switch, distinct case labels):
    - a uniform variable is only assigned at the varying depth at which it was declared, and
      not in a loop body if lanes waiting at a `continue` rely on it (docs 2458-2463: an
      assignment to a uniform variable is not governed by the mask);
    - an unconditional `break` in a varying loop requires that the loop has no `continue`
      (finding a). *)
Fixpoint chk (K : option kinfo) (d : nat) (F : frozen) (D : scope) (s : stmt) : option scope :=
  match s with
  | SSkip => Some D
  | SSeq a b =>
      match chk K d F D a with
      | Some D1 => chk K d F D1 b
      | None => None
      end
  | SDecl x e =>
      if vexpr_ok D e && (dv x =? d) && negb (mem x (fz_v F)) && negb (mem x (sc_v D))
      then Some {| sc_v := x :: sc_v D; sc_u := sc_u D |} else None
  | SUDecl u e =>
      if uexpr_ok D e && (du u =? d) && negb (mem u (fz_u F)) && negb (mem u (sc_u D))
      then Some {| sc_v := sc_v D; sc_u := u :: sc_u D |} else None
  | SAssign x e => if vexpr_ok D e && assign_ok d F D x then Some D else None
  | SUAssign u e =>
      if uexpr_ok D e && mem u (sc_u D) && (du u =? d) && negb (mem u (fz_u F)) then Some D else None
  | SEmit _ e => if vexpr_ok D e then Some D else None
  | SIf _ t a b =>
      let d' := match t with TU _ => d | TV _ => S d end in
      if test_ok D t then
        match chk K d' F D a, chk K d' F D b with Some _, Some _ => Some D | _, _ => None end
      else None
  | SDo _ body t =>
      let u := uniform_cf t body in
      let d' := if u then d else S d in
      let k := {| k_loop := true; k_uni := u; k_dl := d'; k_hasc := negb u && has_continue body;
                  k_sc := false; k_db := D; k_dc := D |} in
      if test_ok D t then
        match chk (Some k) d' F D body with Some _ => Some D | None => None end
      else None
  | SFor _ i t st body =>
      let u := uniform_cf t body in
      let d' := if u then d else S d in
      match chk None d' F D i with
      | None => None
      | Some D1 =>
          let c := negb u && has_continue body in
          let k := {| k_loop := true; k_uni := u; k_dl := d'; k_hasc := c; k_sc := false;
                      k_db := D; k_dc := D1 |} in
          let F' := if c then add_frozen (at_depth d' D1) F else F in
          if test_ok D1 t then
            match chk (Some k) d' F' D1 body, chk None d' F D1 st with
            | Some _, Some _ => Some D
            | _, _ => None
            end
          else None
      end
  | SSwitch t ss =>
      let u := uniform_cf_switch t ss in
      let d' := if u then d else S d in
      let sc := match t with TU _ => true | TV _ => false end in
      let k := {| k_loop := false; k_uni := u; k_dl := d'; k_hasc := false; k_sc := sc;
                  k_db := D; k_dc := D |} in
      if test_ok D t && nodupZ (case_values ss) && (defaults ss <=? 1) && chk_secs (Some k) d' F D ss
      then Some D else None
  | SBreak =>
      match K with
      | None => None
      | Some k =>
          if jump_break k d then (if k_hasc k then None else Some D)
          else if k_uni k then None else Some D
      end
  | SContinue =>
      match K with
      | None => None
      | Some k =>
          if k_loop k && ((d =? k_dl k) || (negb (k_uni k) && k_hasc k)) then Some D else None
      end
  | SReturn e => if vexpr_ok D e then Some D else None
  | SCall x _ us vs =>
      if forallb (uexpr_ok D) us && forallb (vexpr_ok D) vs && assign_ok d F D x then Some D else None
  end
with chk_secs (K : option kinfo) (d : nat) (F : frozen) (D : scope) (ss : secs) : bool :=
  match ss with
  | SNil => true
  | SSec _ body r =>
      match chk K d F D body with Some _ => true | None => false end && chk_secs K d F D r
  end.
End Check.

Definition no_frozen : frozen := {| fz_v := []; fz_u := [] |}.

(** A function: its parameters are the locals 0 .. of their kind, and are not declared again
    in the body. *)
Definition chk_fun (fd : fundef) : bool :=
  let dv := dep_of (f_body fd) in
  let du := udep_of (f_body fd) in
  forallb (fun x => dv x =? 0) (seq 0 (f_nv fd)) &&
  forallb (fun u => du u =? 0) (seq 0 (f_nu fd)) &&
  match chk dv du None 0 no_frozen {| sc_v := seq 0 (f_nv fd); sc_u := seq 0 (f_nu fd) |} (f_body fd) with
  | Some _ => true
  | None => false
  end.

(** All functions of a program pass the check. *)
Definition prog_ok (fs : list fundef) : bool := forallb chk_fun fs.
