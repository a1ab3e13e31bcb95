(** Concrete programs that ispc accepts and for which gang and instances differ, and a
    larger program that passes the check of SpmdSpec. *)
From Coq Require Import ZArith List Bool Arith Lia.
From Verif Require Import Bits SpmdModel SpmdSpec.
Import ListNotations.

Definition cst (z : Z) : vexpr := XU (UConst z).
Definition loc (x : nat) : vexpr := XV (VLoc x).
Definition lane_is (z : Z) : test := TV (XOp OEq XIdx (cst z)).
Fixpoint block (l : list stmt) : stmt := match l with [] => SSkip | [s] => s | s :: r => SSeq s (block r) end.
Definition opt (w : nat) (fs : list fundef) : opts := {| o_width := w; o_cost := est_cost; o_funs := fs |}.
Definition func (nu nv : nat) (l : list stmt) : fundef := {| f_nu := nu; f_nv := nv; f_body := block l |}.
Definition no_globals : gkey -> lane -> Z := fun _ _ => 0%Z.

(** (a)  int c = 0;
         for (int i = 0; i < 3; i++) { c = c + 1; if (programIndex == 0) continue; break; }
         return c; *)
Definition prog_a : list fundef :=
  [func 0 0
    [SDecl 0 (cst 0);
     SFor false (SDecl 1 (cst 0)) (TV (XOp OLt (loc 1) (cst 3))) (SAssign (VLoc 1) (XOp OAdd (loc 1) (cst 1)))
       (block [SAssign (VLoc 0) (XOp OAdd (loc 0) (cst 1)); SIf false (lane_is 0) SContinue SSkip; SBreak]);
     SReturn (loc 0)]].

(** (b)  for (int i = 0; i < 2; i++) {
           if (programIndex == 0) return 1;
           if (i == 1) break;  // under a varying test
           print;
           }
         return 2; *)
Definition prog_b : list fundef :=
  [func 0 0
    [SFor false (SDecl 1 (cst 0)) (TV (XOp OLt (loc 1) (cst 2))) (SAssign (VLoc 1) (XOp OAdd (loc 1) (cst 1)))
       (block [SIf false (lane_is 0) (SReturn (cst 1)) SSkip;
               SIf false (TV (XOp OEq (loc 1) (cst 1))) SBreak SSkip;
               SEmit 7 (loc 1)]);
     SReturn (cst 2)]].

(** (x)  int c = 0;
         for (int i = 0; i < 3; i++) { c = c + 1; if (programIndex == 0) continue; i = i + 10; }
         return c; *)
Definition prog_x : list fundef :=
  [func 0 0
    [SDecl 0 (cst 0);
     SFor false (SDecl 1 (cst 0)) (TV (XOp OLt (loc 1) (cst 3))) (SAssign (VLoc 1) (XOp OAdd (loc 1) (cst 1)))
       (block [SAssign (VLoc 0) (XOp OAdd (loc 0) (cst 1)); SIf false (lane_is 0) SContinue SSkip;
               SAssign (VLoc 1) (XOp OAdd (loc 1) (cst 10))]);
     SReturn (loc 0)]].

(** (y)  int g;                          // not static
         int f() { g = 5; return 0; } *)
Definition prog_y : list fundef := [func 0 0 [SAssign (VGlob false 0) (cst 5); SReturn (cst 0)]].

(** (z)  if (programIndex == 0) { while (true) { if (programIndex == 0) return 1; } }
         return 2; *)
Definition body_z : stmt := SIf false (lane_is 0) (SReturn (cst 1)) SSkip.
Definition prog_z : list fundef :=
  [func 0 0
    [SIf false (lane_is 0) (SFor false SSkip (TU (UConst 1)) SSkip body_z) SSkip;
     SReturn (cst 2)]].

(** (aa) if (programIndex == 5) { while (true) { } }
         return 2; *)
Definition prog_aa : list fundef :=
  [func 0 0
    [SIf false (lane_is 5) (SFor false SSkip (TU (UConst 1)) SSkip SSkip) SSkip;
     SReturn (cst 2)]].

(** (ab) int f(int v) { switch (v) { case 1: print; } return 0; }
         called for lane 0 only, with v = programIndex *)
Definition prog_ab : list fundef :=
  [func 0 1 [SSwitch (TV (loc 0)) (SSec (Some 1%Z) (SEmit 7 (loc 0)) SNil); SReturn (cst 0)]].

(** (az) for (int i = 0; i < 2; print(i), i++) { if (programIndex < 5) break; } *)
Definition prog_az : list fundef :=
  [func 0 0
    [SFor false (SDecl 1 (cst 0)) (TV (XOp OLt (loc 1) (cst 2)))
       (SSeq (SEmit 7 (loc 1)) (SAssign (VLoc 1) (XOp OAdd (loc 1) (cst 1))))
       (SIf false (TV (XOp OLt XIdx (cst 5))) SBreak SSkip);
     SReturn (cst 0)]].

(** (ba) for (int i = 0; i < 2; i++) { if (programIndex == 0) { if (i < 5) break; print(i); } } *)
Definition prog_ba : list fundef :=
  [func 0 0
    [SFor false (SDecl 1 (cst 0)) (TV (XOp OLt (loc 1) (cst 2))) (SAssign (VLoc 1) (XOp OAdd (loc 1) (cst 1)))
       (SIf false (lane_is 0) (block [SIf false (TV (XOp OLt (loc 1) (cst 5))) SBreak SSkip; SEmit 7 (loc 1)]) SSkip);
     SReturn (cst 0)]].

Definition lane0 : mask := fun l => l =? 0.

(** A program with a helper function, a coherent and a plain `if`, a varying loop with
    masked continue and break, a uniform loop, a varying switch with fall-through, a masked
    return and prints; it passes the check.

    static int g;
    int helper(uniform int k, int v) { if (v < k) return v; g = g + v; return v - k; }
    int main(int n) {
      int acc = 0;
      for (int i = 0; i < n; i++) {
        acc = acc + i;
        cif (acc == 3) continue;
        if (6 < acc) break;
        acc = acc + helper(2, i);
      }
      for (uniform int j = 0; j < 2; j++) acc = acc * 3;
      switch (programIndex) { case 0: acc = acc + 1; case 1: acc = acc + 2; break;
                              default: print(acc); if (n == 3) return 100; }
      print(acc);
      return acc;
    } *)
Definition prog_ok_example : list fundef :=
  [func 1 1
     [SIf false (TV (XOp OLt (loc 0) (XU (UVar 0)))) (SReturn (loc 0)) SSkip;
      SAssign (VGlob true 0) (XOp OAdd (XV (VGlob true 0)) (loc 0));
      SReturn (XOp OSub (loc 0) (XU (UVar 0)))];
   func 0 1
     [SDecl 1 (cst 0);
      SDecl 3 (cst 0);
      SFor false (SDecl 2 (cst 0)) (TV (XOp OLt (loc 2) (loc 0))) (SAssign (VLoc 2) (XOp OAdd (loc 2) (cst 1)))
        (block [SAssign (VLoc 1) (XOp OAdd (loc 1) (loc 2));
                SIf true (TV (XOp OEq (loc 1) (cst 3))) SContinue SSkip;
                SIf false (TV (XOp OLt (cst 6) (loc 1))) SBreak SSkip;
                SCall (VLoc 3) 0 [UConst 2] [loc 2];
                SAssign (VLoc 1) (XOp OAdd (loc 1) (loc 3))]);
      SUDecl 0 (UConst 0);
      SFor false SSkip (TU (UOp OLt (UVar 0) (UConst 2))) (SUAssign 0 (UOp OAdd (UVar 0) (UConst 1)))
        (SAssign (VLoc 1) (XOp OMul (loc 1) (cst 3)));
      SSwitch (TV XIdx)
        (SSec (Some 0%Z) (SAssign (VLoc 1) (XOp OAdd (loc 1) (cst 1)))
        (SSec (Some 1%Z) (block [SAssign (VLoc 1) (XOp OAdd (loc 1) (cst 2)); SBreak])
        (SSec None (block [SEmit 1 (loc 1); SIf false (TV (XOp OEq (loc 0) (cst 3))) (SReturn (cst 100)) SSkip])
         SNil)));
      SEmit 2 (loc 1);
      SReturn (loc 1)]].

(** The same program with the other choice of coherent statements. *)
Definition prog_ok_example' : list fundef :=
  [nth 0 prog_ok_example (func 0 0 []);
   func 0 1
     [SDecl 1 (cst 0);
      SDecl 3 (cst 0);
      SFor true (SDecl 2 (cst 0)) (TV (XOp OLt (loc 2) (loc 0))) (SAssign (VLoc 2) (XOp OAdd (loc 2) (cst 1)))
        (block [SAssign (VLoc 1) (XOp OAdd (loc 1) (loc 2));
                SIf false (TV (XOp OEq (loc 1) (cst 3))) SContinue SSkip;
                SIf true (TV (XOp OLt (cst 6) (loc 1))) SBreak SSkip;
                SCall (VLoc 3) 0 [UConst 2] [loc 2];
                SAssign (VLoc 1) (XOp OAdd (loc 1) (loc 3))]);
      SUDecl 0 (UConst 0);
      SFor false SSkip (TU (UOp OLt (UVar 0) (UConst 2))) (SUAssign 0 (UOp OAdd (UVar 0) (UConst 1)))
        (SAssign (VLoc 1) (XOp OMul (loc 1) (cst 3)));
      SSwitch (TV XIdx)
        (SSec (Some 0%Z) (SAssign (VLoc 1) (XOp OAdd (loc 1) (cst 1)))
        (SSec (Some 1%Z) (block [SAssign (VLoc 1) (XOp OAdd (loc 1) (cst 2)); SBreak])
        (SSec None (block [SEmit 1 (loc 1); SIf true (TV (XOp OEq (loc 0) (cst 3))) (SReturn (cst 100)) SSkip])
         SNil)));
      SEmit 2 (loc 1);
      SReturn (loc 1)]].

(** ** Two programs for which the gang never finishes *)

Lemma aa_loop : forall n c st,
  vtop n (opt 2 prog_aa) c true false (TU (UConst 1)) SSkip SSkip st = None /\
  vbody n (opt 2 prog_aa) c true false (TU (UConst 1)) SSkip SSkip st = None.
Proof.
  induction n as [|n IH]; intros c st; [split; reflexivity|]. split.
  - cbn [vtop]. change (teval st (TU (UConst 1)) 0) with true. cbn iota. apply IH.
  - cbn [vbody andb]. destruct n as [|n]; [reflexivity|]. cbn [vexec]. apply IH.
Qed.

Lemma aa_none n : gang_call n (opt 2 prog_aa) 0 all_on [] [] no_globals = None.
Proof.
  unfold gang_call. cbn [opt prog_aa nth_error o_funs func f_body block].
  do 5 (destruct n as [|n]; [reflexivity|]).
  cbn [vexec lane_is]. cbv zeta. change (predicated _ _ _) with true. cbn iota.
  cbn [vif]. cbn [vexec]. change (uniform_cf (TU (UConst 1)) SSkip) with true.
  cbn iota. fold (opt 2 prog_aa).
  match goal with |- context [vtop (S n) ?o ?c true false ?t ?a ?b ?s] =>
    change o with (opt 2 prog_aa); rewrite (proj1 (aa_loop (S n) c s)) end.
  reflexivity.
Qed.

Lemma z_body n c st out st' :
  c_fm c = all_on -> vdepth (c_cf c) <> 0 -> c_bl c = false -> c_cl c = false ->
  v_mask st 1 = false -> v_ret st 1 = false ->
  vexec n (opt 2 prog_z) c body_z st = Some (out, st') ->
  out = VNorm /\ v_mask st' 1 = false /\ v_ret st' 1 = false.
Proof.
  intros Hf Hd Hb Hc Hm Hr H.
  do 3 (destruct n as [|n]; [discriminate|]).
  unfold body_z, lane_is in H. cbn [vexec] in H. cbv zeta in H.
  change (predicated (opt 2 prog_z) (SReturn (cst 1)) SSkip) with true in H. cbn iota in H.
  cbn [vif] in H. cbn [vexec] in H.
  unfold do_return in H.
  assert (Hd' : vdepth (c_cf (push_if false c)) =? 0 = false) by (apply Nat.eqb_neq; discriminate).
  rewrite Hd' in H.
  change (o_width (opt 2 prog_z)) with 2 in H.
  match type of H with context [m_equal 2 ?a ?b] => assert (E : m_equal 2 a b = false) end.
  { unfold m_equal. cbn [seq forallb]. cbn [push_if c_fm]. rewrite Hf.
    match goal with |- ?x && _ = false => destruct x; auto end.
    unfold mor, full, mand. cbn [set_rv set_mask v_ret v_mask]. rewrite Hm, Hr. reflexivity. }
  change (o_width (opt 2 prog_z)) with 2 in H. rewrite E in H. cbn iota in H.
  injection H as <- <-. split; [reflexivity|].
  unfold end_if. rewrite Hb, Hc. cbn [orb].
  cbn [restore_given_returns set_mask v_mask v_ret set_ret set_rv mand mor full mnot push_if c_fm].
  unfold mand, mor, full, mand, mnot, restore_given_returns; cbn [v_mask v_ret set_mask set_ret set_rv]. rewrite Hm, Hr.
  split; reflexivity.
Qed.

Lemma z_loop : forall n c st,
  c_fm c = all_on -> vdepth (c_cf c) <> 0 -> c_bl c = false -> c_cl c = false ->
  v_mask st 1 = false -> v_ret st 1 = false ->
  vtop n (opt 2 prog_z) c true false (TU (UConst 1)) SSkip body_z st = None /\
  vbody n (opt 2 prog_z) c true false (TU (UConst 1)) SSkip body_z st = None.
Proof.
  induction n as [|n IH]; intros c st Hf Hd Hb Hc Hm Hr; [split; reflexivity|]. split.
  - cbn [vtop]. change (teval st (TU (UConst 1)) 0) with true. cbn iota. apply IH; auto.
  - cbn [vbody andb].
    match goal with |- context [vexec n ?o ?cc body_z ?s] => destruct (vexec n o cc body_z s) as [[out st']|] eqn:E end;
      [|reflexivity].
    assert (X : out = VNorm /\ v_mask st' 1 = false /\ v_ret st' 1 = false).
    { apply (z_body n (set_be (full c st) c) st out st'); auto. }
    destruct X as (-> & Hm' & Hr').
    destruct n as [|n]; [reflexivity|]. cbn [vexec].
    unfold restore_continued. rewrite Hb, Hc. apply IH; auto.
Qed.

Lemma z_none n : gang_call n (opt 2 prog_z) 0 all_on [] [] no_globals = None.
Proof.
  unfold gang_call. cbn [opt prog_z nth_error o_funs func f_body block].
  do 6 (destruct n as [|n]; [reflexivity|]).
  cbn [vexec lane_is]. cbv zeta. change (predicated _ _ _) with false. cbn iota.
  cbn [vif_mixed vif]. cbv zeta.
  match goal with |- context [m_any ?w ?m] => change (m_any w m) with true end. cbn iota.
  cbn [vexec]. change (uniform_cf (TU (UConst 1)) body_z) with true. cbn iota.
  match goal with |- context [vtop (S n) ?o ?c true false ?t ?a ?b ?s] =>
    change o with (opt 2 prog_z); rewrite (proj1 (z_loop (S n) c s ltac:(reflexivity) ltac:(discriminate)
      ltac:(reflexivity) ltac:(reflexivity) ltac:(reflexivity) ltac:(reflexivity))) end.
  reflexivity.
Qed.
