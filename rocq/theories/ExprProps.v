From Coq Require Import ZArith List Bool Lia.
From Verif Require Import Bits LanesModel NumModel ExprModel ExprSpec ExprProofs ExprProofs3.
Import ListNotations.
Local Open Scope Z_scope.

(** ** C14: && || and ? : evaluate, for each running lane, what C evaluates for the instance. *)

(** With wrapping arithmetic (--wrap-signed-int).  Missing from the full property: assignments in a
    right operand or an arm (see the next theorem and the refutations), and int32 only. *)
Theorem C14_operators_as_in_c_partial :
  forall (cx : ctx) (mask : nat -> bool) (e : expr) (s : gstate) (q : nat -> lstate) (r : nat -> Z * lstate),
  cx_nsw cx = false -> plain_operands e = true ->
  (exists l, (l < cx_width cx)%nat /\ mask l = true) ->
  (forall l x, (l < cx_width cx)%nat -> g_env s l x <> None) ->
  (forall l, (l < cx_width cx)%nat -> mask l = true ->
     lane_is s l (q l) /\ ceval false (cx_uvar cx) (cx_array cx) (cx_fn cx) e (q l) = Some (r l)) ->
  evaluates_as_instances cx mask e s r.
Proof. intros cx mask e s q r N P On D H. apply (G_use cx mask e s q); auto using plain_tame, on_some. Qed.
Print Assumptions C14_operators_as_in_c_partial.

(** The default mode (nsw arithmetic), for expressions without + and ++. *)
Theorem C14_operators_as_in_c_nsw_partial :
  forall (cx : ctx) (mask : nat -> bool) (e : expr) (s : gstate) (q : nat -> lstate) (r : nat -> Z * lstate),
  adds e = false -> plain_operands e = true ->
  (exists l, (l < cx_width cx)%nat /\ mask l = true) ->
  (forall l x, (l < cx_width cx)%nat -> g_env s l x <> None) ->
  (forall l, (l < cx_width cx)%nat -> mask l = true ->
     lane_is s l (q l) /\ ceval true (cx_uvar cx) (cx_array cx) (cx_fn cx) e (q l) = Some (r l)) ->
  evaluates_as_instances cx mask e s r.
Proof. intros cx mask e s q r N P On D H. apply (G_use_nsw cx mask e s q); auto using plain_tame, on_some. Qed.
Print Assumptions C14_operators_as_in_c_nsw_partial.

(** Assignments in operands and arms are fine when the variable belongs to a scope outside the
    innermost varying control flow, and the operand is one the compiler short-circuits ([tame]). *)
Theorem C14_assigning_operands_partial :
  forall (cx : ctx) (mask : nat -> bool) (e : expr) (s : gstate) (q : nat -> lstate) (r : nat -> Z * lstate),
  cx_nsw cx = false -> tame cx false e = true ->
  (exists l, (l < cx_width cx)%nat /\ mask l = true) ->
  (forall l x, (l < cx_width cx)%nat -> g_env s l x <> None) ->
  (forall l, (l < cx_width cx)%nat -> mask l = true ->
     lane_is s l (q l) /\ ceval false (cx_uvar cx) (cx_array cx) (cx_fn cx) e (q l) = Some (r l)) ->
  evaluates_as_instances cx mask e s r.
Proof. intros cx mask e s q r N P On D H. apply (G_use cx mask e s q); auto using on_some. Qed.
Print Assumptions C14_assigning_operands_partial.

(** An expression that the compiler deems safe and that has no /= can be evaluated with every lane
    off: it is defined and does nothing. *)
Theorem C14_safe_with_all_lanes_off :
  forall (cx : ctx) (e : expr) (s : gstate),
  cx_nsw cx = false -> plain_operands e = true -> safe_all_off (length (cx_array cx)) e = true -> divs e = false ->
  (forall l x, (l < cx_width cx)%nat -> g_env s l x <> None) ->
  exists v s', geval cx (fun _ => false) e s = Some (v, s') /\
    forall l, (l < cx_width cx)%nat ->
      (forall x, cx_outer cx x = true -> g_env s' l x = g_env s l x) /\ g_calls s' l = g_calls s l.
Proof.
  intros cx e s N P S D NP.
  destruct (G_use cx (fun _ => false) e s (fun _ => LS (fun _ => 0) []) (fun _ => (0, LS (fun _ => 0) [])))
    as (v & s' & E & R); auto using plain_tame; [discriminate|].
  exists v, s'. split; [exact E|]. intros l Hl. now apply R.
Qed.
Print Assumptions C14_safe_with_all_lanes_off.

(* i = (lane < 2), two lanes off; x / i != 0 is guarded by i, array[i] by i < 3 *)
Definition ex_cx : ctx :=
  Ctx 4 false false (fun _ => 7) [10; 20; 30] (fun _ z => z + 100) (fun x => Nat.eqb x 0) (fun _ => 99).
Definition ex_state : gstate :=
  GS (fun l x => Some (match x with 0%nat => Z.of_nat l | 1%nat => Z.of_nat l * 5 | _ => 0 end)) (fun _ => []).
Definition ex_lane (l : nat) : lstate :=
  LS (fun x => match x with 0%nat => Z.of_nat l | 1%nat => Z.of_nat l * 5 | _ => 0 end) [].
(* (x != 0 && 12 / x > ...) ? array[x - ...] : f(x) *)
Definition ex_expr : expr :=
  Sel (And (Var 0) (Lt (Div (Num 12) (Var 0)) (Num 8))) (Load (Var 0)) (Call 3 (Var 1)).
Definition ex_mask (l : nat) : bool := Nat.ltb l 3.

Example C14_ex :
  plain_operands ex_expr = true /\ short_circuit ex_cx (Lt (Div (Num 12) (Var 0)) (Num 8)) = true /\
  (forall l, (l < 4)%nat -> ex_mask l = true ->
     lane_is ex_state l (ex_lane l) /\
     exists p, ceval false (cx_uvar ex_cx) (cx_array ex_cx) (cx_fn ex_cx) ex_expr (ex_lane l) = Some p /\
               fst p = nth l [100; 105; 30] 0) /\
  match geval ex_cx ex_mask ex_expr ex_state with
  | Some (v, s') => at_lane v 0 = Some 100 /\ at_lane v 1 = Some 105 /\ at_lane v 2 = Some 30 /\
                    g_calls s' 1%nat = [(3%nat, 5)] /\ g_calls s' 2%nat = [] /\ g_calls s' 3%nat = []
  | None => False
  end.
Proof.
  split; [reflexivity|]. split; [reflexivity|]. split.
  - intros l Hl M. destruct l as [|[|[|l]]]; [| | |discriminate M]; (split; [split; intros; reflexivity|]);
      eexists; (split; [cbn; reflexivity|reflexivity]).
  - vm_compute. repeat split.
Qed.

(** The converse of the first theorem's restriction: a && (i++ < ...) is judged cheap and safe, so it
    is evaluated for every running lane, and a lane where a is false has i incremented. *)
Theorem C14_side_effect_of_skipped_operand_refuted :
  exists (cx : ctx) (mask : nat -> bool) (e : expr) (s s' : gstate) (q : lstate) (v : value) (p : Z * lstate) (x : nat),
    (0 < cx_width cx)%nat /\ mask 0%nat = true /\ cx_nsw cx = false /\ (forall x, cx_outer cx x = true) /\
    e = And (Var 1) (Lt (Incr 0) (Num 5)) /\
    lane_is s 0 q /\ geval cx mask e s = Some (v, s') /\
    ceval false (cx_uvar cx) (cx_array cx) (cx_fn cx) e q = Some p /\
    l_env (snd p) x = 3 /\ g_env s' 0%nat x = Some 4.
Proof.
  exists (Ctx 2 false false (fun _ => 0) [] (fun _ z => z) (fun _ => true) (fun _ => 0)), (fun _ => true).
  exists (And (Var 1) (Lt (Incr 0) (Num 5))), (GS (fun _ x => Some (if Nat.eqb x 0 then 3 else 0)) (fun _ => [])).
  do 1 eexists. exists (LS (fun x => if Nat.eqb x 0 then 3 else 0) []). do 2 eexists. exists 0%nat.
  split; [cbn; lia|]. do 3 (split; [reflexivity|]). split; [reflexivity|].
  split; [split; reflexivity|]. split; [cbn; reflexivity|]. split; [cbn; reflexivity|].
  split; [reflexivity|]. vm_compute. reflexivity.
Qed.
Print Assumptions C14_side_effect_of_skipped_operand_refuted.

(** t ? i++ : 0 with i declared at the same varying control flow depth: i++ is short-circuited or not,
    but its store uses the mask all on, so lanes where t is false are incremented too. *)
Theorem C14_assignment_in_arm_hits_all_lanes_refuted :
  exists (cx : ctx) (mask : nat -> bool) (e : expr) (s s' : gstate) (q : lstate) (v : value) (p : Z * lstate) (x : nat),
    (1 < cx_width cx)%nat /\ mask 1%nat = true /\ cx_nsw cx = false /\
    e = Sel (Var 1) (Incr 0) (Num 0) /\
    lane_is s 1 q /\ geval cx mask e s = Some (v, s') /\
    ceval false (cx_uvar cx) (cx_array cx) (cx_fn cx) e q = Some p /\
    l_env (snd p) x = 3 /\ g_env s' 1%nat x = Some 4.
Proof.
  exists (Ctx 2 false false (fun _ => 0) [] (fun _ z => z) (fun _ => false) (fun _ => 0)), (fun _ => true).
  exists (Sel (Var 1) (Incr 0) (Num 0)),
    (GS (fun l x => Some (if Nat.eqb x 0 then 3 else if Nat.eqb l 0 then 1 else 0)) (fun _ => [])).
  do 1 eexists. exists (LS (fun x => if Nat.eqb x 0 then 3 else 0) []). do 2 eexists. exists 0%nat.
  split; [cbn; lia|]. do 3 (split; [reflexivity|]).
  split; [split; [intros [|x]; reflexivity|reflexivity]|]. split; [cbn; reflexivity|]. split; [cbn; reflexivity|].
  split; [reflexivity|]. vm_compute. reflexivity.
Qed.
Print Assumptions C14_assignment_in_arm_hits_all_lanes_refuted.

(** t ? (x /= y) : 0 where no lane has t: the division is judged safe and cheap, and is emitted with
    no lane on, where it is undefined. *)
Theorem C14_division_assignment_in_arm_refuted :
  exists (cx : ctx) (mask : nat -> bool) (e : expr) (s : gstate) (q : nat -> lstate),
    (0 < cx_width cx)%nat /\ (forall l, mask l = true) /\ cx_nsw cx = false /\ (forall x, cx_outer cx x = true) /\
    e = Sel (Var 1) (DivAssign 0 (Var 0)) (Num 0) /\
    (forall l, lane_is s l (q l) /\
       exists p, ceval false (cx_uvar cx) (cx_array cx) (cx_fn cx) e (q l) = Some p /\ fst p = 0) /\
    geval cx mask e s = None.
Proof.
  exists (Ctx 2 false false (fun _ => 0) [] (fun _ z => z) (fun _ => true) (fun _ => 0)), (fun _ => true).
  exists (Sel (Var 1) (DivAssign 0 (Var 0)) (Num 0)), (GS (fun l x => Some (if Nat.eqb x 0 then 3 else 0)) (fun _ => [])),
    (fun _ => LS (fun x => if Nat.eqb x 0 then 3 else 0) []).
  split; [cbn; lia|]. do 4 (split; [reflexivity|]). split; [|reflexivity].
  intros l. split; [split; reflexivity|]. eexists. split; [cbn; reflexivity|reflexivity].
Qed.
Print Assumptions C14_division_assignment_in_arm_refuted.

(** ** C47: arithmetic in lanes that are off has no consequence. *)

(** With --wrap-signed-int: whatever the values of the other lanes, evaluation is defined and the
    running lanes get what C gives them.  (Off lanes are arbitrary in [s].) *)
Theorem C47_values_of_other_lanes_do_not_matter_partial :
  forall (cx : ctx) (mask : nat -> bool) (e : expr) (s1 s2 : gstate) (v1 : value) (s1' : gstate) (q : nat -> lstate),
  cx_nsw cx = false -> plain_operands e = true ->
  (exists l, (l < cx_width cx)%nat /\ mask l = true) ->
  (forall l x, (l < cx_width cx)%nat -> g_env s1 l x <> None /\ g_env s2 l x <> None) ->
  (forall l, (l < cx_width cx)%nat -> mask l = true -> lane_is s1 l (q l) /\ lane_is s2 l (q l) /\
      ceval false (cx_uvar cx) (cx_array cx) (cx_fn cx) e (q l) <> None) ->
  geval cx mask e s1 = Some (v1, s1') ->
  exists v2 s2', geval cx mask e s2 = Some (v2, s2') /\
    forall l, (l < cx_width cx)%nat -> mask l = true ->
      at_lane v2 l = at_lane v1 l /\ (forall x, g_env s2' l x = g_env s1' l x) /\ g_calls s2' l = g_calls s1' l.
Proof.
  intros cx mask e s1 s2 v1 s1' q N P On D H E1.
  set (r := fun l => match ceval false (cx_uvar cx) (cx_array cx) (cx_fn cx) e (q l) with Some p => p | None => (0, q l) end).
  assert (R : forall l, (l < cx_width cx)%nat -> mask l = true ->
    ceval false (cx_uvar cx) (cx_array cx) (cx_fn cx) e (q l) = Some (r l)).
  { intros l Hl M. destruct (H l Hl M) as (_ & _ & X). unfold r. destruct (ceval _ _ _ _ _ _); congruence. }
  destruct (G_use cx mask e s1 q r) as (w1 & t1 & F1 & A1); auto using plain_tame, on_some; [apply D|..].
  { intros l Hl M. split; [now apply H|now apply R]. }
  destruct (G_use cx mask e s2 q r) as (w2 & t2 & F2 & A2); auto using plain_tame, on_some; [apply D|..].
  { intros l Hl M. split; [now apply H|now apply R]. }
  rewrite F1 in E1. injection E1 as -> ->. exists w2, t2. split; [exact F2|]. intros l Hl M.
  destruct (A1 l Hl) as [X1 _]. destruct (A2 l Hl) as [X2 _]. destruct (X1 M) as (V1 & L1 & K1). destruct (X2 M) as (V2 & L2 & K2).
  split; [congruence|]. split; [|congruence]. intros x. now rewrite L1, L2.
Qed.
Print Assumptions C47_values_of_other_lanes_do_not_matter_partial.

(** By default it is not so: with INT_MAX in a lane that is off, (x + 1 < 5) ? f(x) : 0 branches on
    poison, although the only running lane is fine. *)
Theorem C47_overflow_in_lane_that_is_off_refuted :
  exists (cx : ctx) (mask : nat -> bool) (e : expr) (s : gstate) (q : lstate) (p : Z * lstate),
    cx_nsw cx = true /\ cx_width cx = 2%nat /\ mask 0%nat = true /\ mask 1%nat = false /\
    e = Sel (Lt (Add (Var 0) (Num 1)) (Num 5)) (Call 0 (Var 0)) (Num 0) /\
    lane_is s 0 q /\ g_env s 1%nat 0%nat = Some (2 ^ 31 - 1) /\
    ceval true (cx_uvar cx) (cx_array cx) (cx_fn cx) e q = Some p /\ fst p = 3 /\
    geval cx mask e s = None.
Proof.
  exists (Ctx 2 true false (fun _ => 0) [] (fun _ z => z) (fun _ => true) (fun _ => 0)), (fun l => Nat.eqb l 0).
  exists (Sel (Lt (Add (Var 0) (Num 1)) (Num 5)) (Call 0 (Var 0)) (Num 0)).
  exists (GS (fun l x => Some (if Nat.eqb l 0 then 3 else 2 ^ 31 - 1)) (fun _ => [])), (LS (fun _ => 3) []).
  eexists. do 5 (split; [reflexivity|]). split; [split; reflexivity|]. split; [reflexivity|].
  split; [cbn; reflexivity|]. split; [reflexivity|]. vm_compute. reflexivity.
Qed.
Print Assumptions C47_overflow_in_lane_that_is_off_refuted.
