(** C64: initializers of variables. *)
From Coq Require Import List Bool Arith Lia Permutation ZArith.
Import ListNotations.
From Verif Require Import CastModel InitModel InitSpec InitProofs InitProofs2 InitProofs3.
Local Open Scope nat_scope.
Local Open Scope list_scope.

(** The variable has the value its initializer says, whatever the nesting of lists, arrays, structures and vectors: the
    elements in order, converted to their types, those left out zero; every expression that is not constant is evaluated
    exactly once.  Missing: the initializers [supported] leaves out. *)
Theorem C64_initialises_partial : forall V zero conv W mem_count value t i x tr,
  (forall n : nat, n <= mem_count n) -> initial V zero conv W value t i x -> supported V t i ->
  exists m tr', init_symbol V zero conv W mem_count value t i tr = OK (m, tr ++ tr') /\ holds V W t m x /\
    Permutation tr' (effects V i).
Proof.
  intros V zero conv W mc value t i x tr E H S. destruct (init_ok _ _ _ _ _ _ E _ _ _ H S tr) as (m & tr' & A & B & C & _).
  exists m, tr'. auto.
Qed.
Print Assumptions C64_initialises_partial.

(** Without uniform vectors in the type, the expressions are evaluated in the order they are written. *)
Theorem C64_order_partial : forall V zero conv W mem_count value t i x tr,
  (forall n : nat, n <= mem_count n) -> initial V zero conv W value t i x -> supported V t i -> no_uniform_vector t = true ->
  exists m, init_symbol V zero conv W mem_count value t i tr = OK (m, tr ++ effects V i) /\ holds V W t m x.
Proof.
  intros V zero conv W mc value t i x tr E H S N. destruct (init_ok _ _ _ _ _ _ E _ _ _ H S tr) as (m & tr' & A & B & _ & C).
  rewrite (C N) in A. eauto.
Qed.
Print Assumptions C64_order_partial.

(** An initializer has one meaning at most. *)
Theorem C64_one_value : forall V zero conv W value t i x y,
  initial V zero conv W value t i x -> initial V zero conv W value t i y -> x = y.
Proof. exact initial_unique. Qed.
Print Assumptions C64_one_value.

(** Lists that are too long, and lists for a varying variable that do not have one value or one for every program
    instance, are rejected. *)
Theorem C64_wrong_length : forall V zero conv W mem_count value t l tr,
  wrong_length V W t l -> init_symbol V zero conv W mem_count value t (IList l) tr = Err.
Proof. intros. apply length_err. auto. Qed.
Print Assumptions C64_wrong_length.

(** So is a value that does not convert to the type of the variable, as a varying one if that is uniform. *)
Theorem C64_no_conversion : forall V zero conv W mem_count value t e tr,
  has_type V W (e_ty e) (value (e_id e)) -> e_const e = None ->
  (forall x, ~ converted V conv W t (e_ty e) (value (e_id e)) x) ->
  init_symbol V zero conv W mem_count value t (IExpr e) tr = Err.
Proof. intros. apply convert_err; auto. Qed.
Print Assumptions C64_no_conversion.

Theorem C64_varying_rejected : forall V zero conv W mem_count value b b' e tr,
  has_type V W (e_ty e) (value (e_id e)) -> e_const e = None -> e_ty e = TB true b' ->
  init_symbol V zero conv W mem_count value (TB false b) (IExpr e) tr = Err.
Proof.
  intros V zero conv W mc value b b' e tr T K E. apply convert_err; auto. rewrite E. intros x C. inversion C.
Qed.
Print Assumptions C64_varying_rejected.

(** Dimensions left out are those of the initializer. *)
Theorem C64_dimensions : forall V ds declared t i,
  Forall (lt 0) ds -> (forall n t', t <> TA n t') -> agrees declared ds -> shape V ds i ->
  size_unsized V (array declared t) i = Some (array ds t).
Proof. exact size_ok. Qed.
Print Assumptions C64_dimensions.

(** ** Cases *)
Local Open Scope Z_scope.
Definition z0 (b : basic) : Z := 0.
(** Conversion to int drops a fraction, in quarters here. *)
Definition zc (from to : basic) (x : Z) : Z :=
  match from, to with BFloat, BInt32 => x / 4 | BInt32, BFloat => x * 4 | _, _ => x end.
Definition mc (n : nat) : nat := Nat.max 4 n.
Definition run (value : nat -> val Z) := init_symbol Z z0 zc 2 mc value.
Definition var (k : nat) (t : ty) : init Z := IExpr (Build_expr k t true None).
Definition lit (b : basic) (x : Z) : init Z := IExpr (Build_expr 0%nat (TB false b) true (Some (VB x))).
Definition vals (k : nat) : val Z := match k with 1%nat => VB 11 | 2%nat => VB 22 | 3%nat => VL [5; 6] | _ => VB 7 end.
Definition fl := TB false BFloat.
Definition it := TB false BInt32.

(** struct { int a[3]; varying float f; int<2> v; } s = { { x, 2.5f }, y, { x } } with uniform x, varying y; its vector
    members need constants. *)
Definition st := TS [TA 3 it; TB true BFloat; TV false 2 BInt32].
Definition si := IList [IList [var 1 it; lit BFloat 10]; var 3 (TB true BFloat); IList [lit BInt32 9]].
Example C64_case_initial : initial Z z0 zc 2 vals st si (VN [VN [VB 11; VB 2; VB 0]; VL [5; 6]; VN [VB 9; VB 0]]).
Proof.
  apply InStruct. apply MCons.
  - apply InArray. apply MCons; [apply InExpr; apply CUniform|]. apply MCons; [apply InExpr; apply CUniform|].
    apply MZero; [apply ZUniform|apply MNil].
  - apply MCons; [apply InExpr; apply (CVarying Z zc 2 BFloat BFloat [5; 6]); auto|]. apply MCons; [|apply MNil].
    apply InVector. apply MCons; [apply InExpr; apply CUniform|]. apply MZero; [apply ZUniform|apply MNil].
Qed.
Example C64_case_supported : supported Z st si.
Proof.
  apply PStruct. apply PCons; [apply PArray; repeat constructor; discriminate|]. apply PCons; [apply PExpr; discriminate|].
  apply PCons; [|apply PNil]. apply PConstants. constructor; [|constructor]. eapply KExpr; reflexivity.
Qed.
Example C64_case_run : run vals st si [] =
  OK (MA [MA [MC (Some 11); MC (Some 2); MC (Some 0)]; ML [Some 5; Some 6]; ML [Some 9; Some 0; None; None]], [1%nat; 3%nat]).
Proof. vm_compute. reflexivity. Qed.
(** uniform float<4> v = { x, a, b, y } with float x, y and int a, b: the ints first. *)
Definition vi : init Z := IList (map IExpr [Build_expr 1%nat fl true None; Build_expr 2%nat it true None; Build_expr 4%nat it true None; Build_expr 5%nat fl true None]).
Example C64_case_vector : supported Z (TV false 4 BFloat) vi /\
  run vals (TV false 4 BFloat) vi [] = OK (ML [Some 11; Some 88; Some 28; Some 7], [2; 4; 1; 5]%nat).
Proof.
  split; [|vm_compute; reflexivity]. apply PVector; auto; [discriminate| |].
  - intros e [<- |[<- |[<- |[<- |[]]]]]; (split; [reflexivity|]); eexists; exists false; reflexivity.
  - intros [|[|[|[|k]]]] e b' E (vy & H) N; cbn in E; try (destruct k; discriminate); injection E as <-; cbn in H; injection H as <- <-; try (destruct N; reflexivity).
    + exists 2%nat, (Build_expr 4%nat it true None). repeat split; auto. exists false. reflexivity.
    + exists 1%nat, (Build_expr 2%nat it true None). repeat split; auto. exists false. reflexivity.
Qed.
Example C64_case_length : wrong_length Z 2 (TB true BInt32) [lit BInt32 1; lit BInt32 2; lit BInt32 3].
Proof. cbn. lia. Qed.
Example C64_case_dimensions : size_unsized Z (TA 0 (TA 0 it)) (IList [IList [lit BInt32 1; lit BInt32 2]; IList [var 1 it; lit BInt32 4]; IList [lit BInt32 5; lit BInt32 6]]) = Some (TA 3 (TA 2 it)).
Proof. reflexivity. Qed.

(** ** Findings *)
(** uniform float<4> v = { a, b } with variables a and b leaves v[2] and v[3] undefined (poison), although
    { 1, 2 } makes them zero, as does the same list for an array. *)
Theorem C64_vector_short_refuted :
  (exists x, initial Z z0 zc 2 vals (TV false 4 BFloat) (IList [var 1 fl; var 2 fl]) x) /\
  run vals (TV false 4 BFloat) (IList [var 1 fl; var 2 fl]) [] = OK (ML [Some 11; Some 22; None; None], [1; 2]%nat) /\
  run vals (TV false 4 BFloat) (IList [lit BFloat 11; lit BFloat 22]) [] = OK (ML [Some 11; Some 22; Some 0; Some 0], []) /\
  run vals (TA 4 fl) (IList [var 1 fl; var 2 fl]) [] = OK (MA [MC (Some 11); MC (Some 22); MC (Some 0); MC (Some 0)], [1; 2]%nat).
Proof.
  split; [|vm_compute; auto]. eexists. apply InVector. repeat (apply MCons; [apply InExpr; apply CUniform|]).
  repeat (apply MZero; [apply ZUniform|]). apply MNil.
Qed.
Print Assumptions C64_vector_short_refuted.

(** In a list for a uniform vector, the only expression of a type other than the element type is evaluated twice: in
    uniform float<4> v = { x, y, z, f() } where f returns an int, f is called twice (src/expr.cpp 960-963). *)
Theorem C64_evaluated_twice_refuted :
  effects Z (IList [var 1 fl; var 2 fl; var 4 fl; var 5 it]) = [1; 2; 4; 5]%nat /\
  run vals (TV false 4 BFloat) (IList [var 1 fl; var 2 fl; var 4 fl; var 5 it]) [] =
    OK (ML [Some 11; Some 22; Some 7; Some 28], [5; 5; 1; 2; 4]%nat).
Proof. split; vm_compute; reflexivity. Qed.
Print Assumptions C64_evaluated_twice_refuted.

(** The values of a list for a uniform vector are not evaluated from left to right but type by type: with side effects
    (uniform float<4> v = { g(), f(), x, f() } with f of type int) the calls of f come first. *)
Theorem C64_vector_order_refuted :
  effects Z vi = [1; 2; 4; 5]%nat /\ exists m, run vals (TV false 4 BFloat) vi [] = OK (m, [2; 4; 1; 5]%nat).
Proof. split; [reflexivity|]. eexists. vm_compute. reflexivity. Qed.
Print Assumptions C64_vector_order_refuted.

(** A list of variables for a uniform vector of bool is stored as bits, not as the bytes the elements are in memory: no
    element has its value (src/expr.cpp 969 stores without the type). *)
Theorem C64_bool_vector_refuted :
  let l := [var 1 (TB false BBool); var 2 (TB false BBool); var 4 (TB false BBool); var 5 (TB false BBool)] in
  (exists x, initial Z z0 zc 2 vals (TV false 4 BBool) (IList l) x) /\
  run vals (TV false 4 BBool) (IList l) [] = OK (ML [None; None; None; None], [1; 2; 4; 5]%nat).
Proof.
  split; [|vm_compute; reflexivity]. eexists. apply InVector. repeat (apply MCons; [apply InExpr; apply CUniform|]). apply MNil.
Qed.
Print Assumptions C64_bool_vector_refuted.

(** Varying values in a list for a uniform vector are accepted without an error if a uniform variable comes first, and the
    vector stays undefined: uniform float<4> v = { d, y, y } with a uniform double d and a varying float y
    (src/expr.cpp 934 returns). *)
Theorem C64_varying_accepted_refuted :
  let l := [var 1 (TB false BDouble); var 3 (TB true BFloat); var 3 (TB true BFloat)] in
  (forall x, ~ initial Z z0 zc 2 vals (TV false 4 BFloat) (IList l) x) /\
  run vals (TV false 4 BFloat) (IList l) [] = OK (ML [None; None; None; None], []).
Proof.
  split; [|vm_compute; reflexivity]. intros x H. inversion H as [| | |? ? ? ? ? M| |]; subst. cbn in M.
  inversion M as [| |? ? ? ? ? ? I1 M1]; subst. inversion M1 as [| |? ? ? ? ? ? I2 M2]; subst. inversion I2 as [? ? ? C| | | | |]; subst. inversion C.
Qed.
Print Assumptions C64_varying_accepted_refuted.

(** A value in braces in a list for a uniform vector that is not constant stops the compiler: uniform float<2> v =
    { { a }, b }; for an array or a varying vector it is accepted. *)
Theorem C64_nested_braces_refuted :
  (exists x, initial Z z0 zc 2 vals (TV false 2 BFloat) (IList [IList [var 1 fl]; var 2 fl]) x) /\
  run vals (TV false 2 BFloat) (IList [IList [var 1 fl]; var 2 fl]) [] = Crash /\
  run vals (TA 2 fl) (IList [IList [var 1 fl]; var 2 fl]) [] = OK (MA [MC (Some 11); MC (Some 22)], [1; 2]%nat).
Proof.
  split; [|vm_compute; auto]. eexists. apply InVector. apply MCons; [apply InBraces; apply InExpr; apply CUniform|].
  apply MCons; [apply InExpr; apply CUniform|]. apply MNil.
Qed.
Print Assumptions C64_nested_braces_refuted.
