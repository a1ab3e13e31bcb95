(** Properties of SPMD control flow: C01, C02, C03, C04, C05, C11, C12, C13.

    [gang_call] (SpmdModel) runs a function as ispc compiles it; [lane_call] (SpmdSpec) runs
    it for one program instance as serial C.  [prog_ok] (SpmdSpec) is the static check that
    excludes the constructs for which the two are shown to differ below. *)
From Coq Require Import ZArith List Bool Arith Lia.
From Verif Require Import Bits SpmdModel SpmdSpec SpmdRel SpmdCall SpmdWitness SpmdGuard SpmdLive8.
Import ListNotations.

(** Evaluate a claim about the result of a closed run. *)
Ltac run_closed :=
  lazymatch goal with
  | |- exists x y z, ?call = Some (x, y, z) /\ @?Q x y z =>
      let H := fresh "H" in
      assert (H : match call with Some (x, y, z) => Q x y z | None => False end)
        by (vm_compute; repeat split);
      destruct call as [[[? ?] ?]|]; [|contradiction];
      eexists _, _, _; split; [reflexivity|exact H]
  | |- exists r, ?call = Some r =>
      let H := fresh "H" in
      assert (H : match call with Some _ => true | None => false end = true) by (vm_compute; reflexivity);
      destruct call; [eexists; reflexivity|discriminate]
  end.

(** ** C01: every active instance computes its serial result *)

Theorem C01_gang_matches_serial_instances_partial :
  forall n o f fm us vs G rv G' tr,
    prog_ok (o_funs o) = true ->
    gang_call n o f fm us vs G = Some (rv, G', tr) ->
    forall l, l < o_width o -> fm l = true ->
      exists Gl,
        lane_call n (o_funs o) l f us (map (fun v => v l) vs) (fun g => G g l) =
          Some (rv l, Gl, lane_trace l tr) /\
        forall g, Gl g = G' g l.
Proof. intros n o f fm us vs G rv G' tr HP H. exact (proj2 (gang_call_sim _ _ _ _ _ _ _ _ _ _ HP H)). Qed.

Example C01_ex :
  prog_ok prog_ok_example = true /\
  exists rv G' tr,
    gang_call 100 (opt 4 prog_ok_example) 1 (fun l => negb (l =? 2)) [] [fun l => Z.of_nat l + 2]%Z no_globals
      = Some (rv, G', tr) /\
    map rv [0; 1; 3] = [21; 38; 63]%Z /\ map (G' (true, 0)) [0; 1; 2; 3] = [0; 2; 0; 2]%Z /\
    lane_trace 3 tr = [(1, 63%Z); (2, 63%Z)].
Proof.
  split; [vm_compute; reflexivity|].
  run_closed.
Qed.

(** Finding (x): a loop variable declared in the for statement is stored with an all-on mask
    in the body, so the copy of an instance that executed `continue` is overwritten: instance 0 of [prog_x] should count 3 iterations, the gang gives 1. *)
Theorem C01_store_after_continue_refuted :
  (exists rv G' tr,
     gang_call 100 (opt 2 prog_x) 0 all_on [] [] no_globals = Some (rv, G', tr) /\ rv 0 = 1%Z) /\
  (exists r Gl t,
     lane_call 100 prog_x 0 0 [] [] (fun g => no_globals g 0) = Some (r, Gl, t) /\ r = 3%Z).
Proof. split; run_closed. Qed.

(** ** C02: instances that are off are not affected *)

Theorem C02_inactive_instances_untouched_partial :
  forall n o f fm us vs G rv G' tr,
    prog_ok (o_funs o) = true ->
    gang_call n o f fm us vs G = Some (rv, G', tr) ->
    forall l, l < o_width o -> fm l = false ->
      (forall g, G' g l = G g l) /\ lane_trace l tr = [].
Proof. intros n o f fm us vs G rv G' tr HP H. exact (proj1 (gang_call_sim _ _ _ _ _ _ _ _ _ _ HP H)). Qed.

Example C02_ex :
  exists rv G' tr,
    gang_call 100 (opt 4 prog_ok_example) 1 (fun l => negb (l =? 2)) [] [fun l => Z.of_nat l + 2]%Z
      (fun _ l => Z.of_nat l * 7)%Z = Some (rv, G', tr) /\
    map (G' (true, 0)) [0; 1; 2; 3] = [0; 9; 14; 23]%Z /\ lane_trace 2 tr = [].
Proof.
  run_closed.
Qed.

(** Finding (y): at the top level of a function an assignment to a file-scope varying variable
    that is not `static` ignores the mask the function was called with. *)
Theorem C02_global_store_refuted :
  exists rv G' tr,
    gang_call 100 (opt 2 prog_y) 0 lane0 [] [] no_globals = Some (rv, G', tr) /\
    lane0 1 = false /\ no_globals (false, 0) 1 = 0%Z /\ G' (false, 0) 1 = 5%Z.
Proof.
  run_closed.
Qed.

(** ** C03: termination *)

(** If the gang finishes, so does every active instance. *)
Theorem C03_gang_terminates_then_instances_do_partial :
  forall n o f fm us vs G r,
    prog_ok (o_funs o) = true ->
    gang_call n o f fm us vs G = Some r ->
    forall l, l < o_width o -> fm l = true ->
      exists rl, lane_call n (o_funs o) l f us (map (fun v => v l) vs) (fun g => G g l) = Some rl.
Proof.
  intros n o f fm us vs G [[rv G'] tr] HP H l Hl Hf.
  destruct (proj2 (gang_call_sim _ _ _ _ _ _ _ _ _ _ HP H) l Hl Hf) as (Gl & E & _). eauto.
Qed.

(** Conversely, if every active instance finishes, so does the gang, for functions that pass the check of
    SpmdGuard, which rejects the two loops of the findings below.  [ok] is the set of functions that may be
    called, and [on] is true if the function is only entered with all lanes on. *)
Theorem C03_instances_terminate_then_gang_does_partial :
  forall o f ok on fm us vs G,
    prog_ok (o_funs o) = true -> guarded_call ok on (o_funs o) f = true ->
    (on = true -> forall l, l < o_width o -> fm l = true) ->
    (exists l, l < o_width o /\ fm l = true) ->
    (forall l, l < o_width o -> fm l = true ->
       exists n r, lane_call n (o_funs o) l f us (map (fun v => v l) vs) (fun g => G g l) = Some r) ->
    exists N r, gang_call N o f fm us vs G = Some r.
Proof.
  intros o f ok on fm us vs G HP HG ON SM HL.
  destruct (live_call o f ok on fm us vs G HP HG ON SM HL) as (N & rv & G' & tr & E & _). eauto.
Qed.

(** [prog_live]: a helper function with a masked return, a varying loop with masked continue and break that
    calls it, a uniform loop, and a varying switch that prints.  [rec_live]: a recursive function whose
    recursive call is made under a varying `if`, for any non-empty mask. *)
Definition prog_live : list fundef :=
  [func 1 1
     [SIf false (TV (XOp OLt (loc 0) (XU (UVar 0)))) (SReturn (loc 0)) SSkip;
      SAssign (VGlob true 0) (XOp OAdd (XV (VGlob true 0)) (loc 0));
      SReturn (XOp OSub (loc 0) (XU (UVar 0)))];
   func 0 1
     [SDecl 1 (cst 0);
      SDecl 3 (cst 0);
      SFor false (SDecl 2 (cst 0)) (TV (XOp OLt (loc 2) (loc 0))) (SAssign (VLoc 2) (XOp OAdd (loc 2) (cst 1)))
        (block [SAssign (VLoc 1) (XOp OAdd (loc 1) (loc 2));
                SIf true (TV (XOp OEq (loc 1) (cst 3))) SContinue SSkip;
                SIf false (TV (XOp OLt (cst 6) (loc 1))) SBreak SSkip;
                SCall (VLoc 3) 0 [UConst 2] [loc 2];
                SAssign (VLoc 1) (XOp OAdd (loc 1) (loc 3))]);
      SUDecl 0 (UConst 0);
      SFor false SSkip (TU (UOp OLt (UVar 0) (UConst 2))) (SUAssign 0 (UOp OAdd (UVar 0) (UConst 1)))
        (SAssign (VLoc 1) (XOp OMul (loc 1) (cst 3)));
      SSwitch (TV XIdx)
        (SSec (Some 0%Z) (SAssign (VLoc 1) (XOp OAdd (loc 1) (cst 1)))
        (SSec (Some 1%Z) (block [SAssign (VLoc 1) (XOp OAdd (loc 1) (cst 2)); SBreak])
        (SSec None (SEmit 1 (loc 1)) SNil)));
      SEmit 2 (loc 1);
      SReturn (loc 1)]].

Definition rec_live : list fundef :=
  [func 0 1
     [SDecl 1 (cst 0);
      SIf false (TV (XOp OLt (cst 0) (loc 0)))
        (block [SEmit 4 (loc 0); SCall (VLoc 1) 0 [] [XOp OSub (loc 0) (cst 1)]]) SSkip;
      SReturn (XOp OAdd (loc 1) (loc 0))]].

Example C03_ex :
  prog_ok prog_live = true /\ guarded_call (Nat.eqb 0) true prog_live 1 = true /\
  prog_ok rec_live = true /\ guarded_call (Nat.eqb 0) false rec_live 0 = true /\
  (forall l, l < 4 -> exists n r,
     lane_call n prog_live l 1 [] (map (fun v => v l) [fun l => Z.of_nat l + 2]%Z) (fun g => no_globals g l) = Some r) /\
  (forall l, l < 4 -> exists n r,
     lane_call n rec_live l 0 [] (map (fun v => v l) [fun l => Z.of_nat l + 2]%Z) (fun g => no_globals g l) = Some r).
Proof.
  do 4 (split; [vm_compute; reflexivity|]).
  split; (intros [|[|[|[|l]]]] Hl; [| | | |lia]; exists 100; run_closed).
Qed.

(** Finding (z): the instances all finish, the gang does not, for any amount of time. *)
Theorem C03_masked_return_in_uniform_loop_refuted :
  (forall l, l < 2 -> exists r, lane_call 100 prog_z l 0 [] [] (fun g => no_globals g l) = Some r) /\
  (forall n, gang_call n (opt 2 prog_z) 0 all_on [] [] no_globals = None).
Proof.
  split; [|exact z_none].
  intros [|[|l]] Hl; [| |lia];
    run_closed.
Qed.

(** Finding (aa): an empty uniform `while` is straight-line predicated, so the gang hangs although
    no instance reaches the loop. *)
Theorem C03_predicated_uniform_loop_refuted :
  (forall l, l < 2 -> exists r, lane_call 100 prog_aa l 0 [] [] (fun g => no_globals g l) = Some r) /\
  (forall n, gang_call n (opt 2 prog_aa) 0 all_on [] [] no_globals = None).
Proof.
  split; [|exact aa_none].
  intros [|[|l]] Hl; [| |lia];
    run_closed.
Qed.

(** ** C04: cif / cfor / cwhile / cdo mean the same as if / for / while / do *)

(** [plain_fun] replaces every coherent statement by the plain one: two programs with equal images
    differ only in the choice of coherent statements.  The cost estimates (and hence the code layout)
    may differ too. *)
Theorem C04_coherent_same_results_partial :
  forall n1 n2 o1 o2 f fm us vs G r1 G1 t1 r2 G2 t2,
    prog_ok (o_funs o1) = true ->
    map plain_fun (o_funs o1) = map plain_fun (o_funs o2) ->
    gang_call n1 o1 f fm us vs G = Some (r1, G1, t1) ->
    gang_call n2 o2 f fm us vs G = Some (r2, G2, t2) ->
    forall l, l < o_width o1 -> l < o_width o2 ->
      (fm l = true -> r1 l = r2 l) /\ (forall g, G1 g l = G2 g l) /\ lane_trace l t1 = lane_trace l t2.
Proof. exact coherent_same. Qed.

Example C04_ex :
  map plain_fun prog_ok_example = map plain_fun prog_ok_example' /\
  prog_ok_example <> prog_ok_example' /\
  (forall p, p = prog_ok_example \/ p = prog_ok_example' ->
     exists r, gang_call 100 (opt 4 p) 1 all_on [] [fun l => Z.of_nat l + 2]%Z no_globals = Some r).
Proof.
  split; [reflexivity|]. split; [discriminate|].
  intros p [-> | ->];
    run_closed.
Qed.

(** ** C05: maximal convergence *)

(** After any statement [s] at any [point] of a checked function: an instance is on again if and only if
    its own serial run of [s] ended normally, and the others are recorded as returned, broken or continued. *)
Theorem C05_mask_after_statement_partial :
  forall o n dv du K d F D D' c s st st',
    prog_ok (o_funs o) = true ->
    point o dv du K d F D D' c s st ->
    vexec n o c s st = Some (VNorm, st') ->
    forall l, l < o_width o -> c_fm c l = true ->
      (v_mask st l = false -> v_mask st' l = false) /\
      (v_mask st l = true ->
       exists ol s', lexec n (o_funs o) l s (lane_of l st) = Some (ol, s') /\
         (v_mask st' l = true <-> ol = LNorm) /\
         (v_ret st' l = true <-> ol = LRet) /\
         (v_brk st' l = true <-> ol = LBrk) /\
         (v_cnt st' l = true <-> ol = LCont)).
Proof. exact mask_after. Qed.

(** The start of every checked function is such a point. *)
Example C05_ex :
  forall o fd fm us vs G, chk_fun fd = true ->
  exists D D', point o (dep_of (f_body fd)) (udep_of (f_body fd)) None 0 no_frozen D D'
          (fun_cx fm (dep_of (f_body fd))) (f_body fd) (call_state us vs G).
Proof. exact point_entry. Qed.

(** ** C11: varying switch *)

(** A function that consists of a switch on a varying value and some code after it. *)
Theorem C11_varying_switch_is_c_switch_partial :
  forall n o f fd e ss rest fm us vs G rv G' tr,
    prog_ok (o_funs o) = true ->
    nth_error (o_funs o) f = Some fd -> f_body fd = SSeq (SSwitch (TV e) ss) rest ->
    gang_call n o f fm us vs G = Some (rv, G', tr) ->
    forall l, l < o_width o -> fm l = true ->
      exists Gl,
        lane_call n (o_funs o) l f us (map (fun v => v l) vs) (fun g => G g l) =
          Some (rv l, Gl, lane_trace l tr) /\
        forall g, Gl g = G' g l.
Proof. intros. eapply C01_gang_matches_serial_instances_partial; eauto. Qed.

(** int f(int v) { switch (v) { default: g = g + 1; case 3: g = g + 10; break; case 1: g = g + 100;
                                case 2: return v; }  return g; } *)
Definition prog_switch : list fundef :=
  let add z := SAssign (VGlob true 0) (XOp OAdd (XV (VGlob true 0)) (cst z)) in
  [func 0 1 [SSwitch (TV (loc 0))
               (SSec None (add 1%Z) (SSec (Some 3%Z) (SSeq (add 10%Z) SBreak)
                 (SSec (Some 1%Z) (add 100%Z) (SSec (Some 2%Z) (SReturn (loc 0)) SNil))));
             SReturn (XV (VGlob true 0))]].

Example C11_ex :
  prog_ok prog_switch = true /\
  exists rv G' tr,
    gang_call 100 (opt 4 prog_switch) 0 all_on [] [fun l => Z.of_nat l] no_globals = Some (rv, G', tr) /\
    map rv [0; 1; 2; 3] = [11; 1; 2; 10]%Z /\ map (G' (true, 0)) [0; 1; 2; 3] = [11; 100; 0; 10]%Z.
Proof.
  split; [vm_compute; reflexivity|].
  run_closed.
Qed.

(** ** C12: break *)

(** A function that consists of a varying loop and some code after it. *)
Theorem C12_break_affects_only_executing_lanes_partial :
  forall n o f fd coh i e step body rest fm us vs G rv G' tr,
    prog_ok (o_funs o) = true ->
    nth_error (o_funs o) f = Some fd -> f_body fd = SSeq (SFor coh i (TV e) step body) rest ->
    gang_call n o f fm us vs G = Some (rv, G', tr) ->
    forall l, l < o_width o -> fm l = true ->
      exists Gl,
        lane_call n (o_funs o) l f us (map (fun v => v l) vs) (fun g => G g l) =
          Some (rv l, Gl, lane_trace l tr) /\
        forall g, Gl g = G' g l.
Proof. intros. eapply C01_gang_matches_serial_instances_partial; eauto. Qed.

(** for (int i = 0; i < 4; i++) { if (i == programIndex) continue; if (programIndex < i) break; print(i); }
    return 0; *)
Definition prog_break : list fundef :=
  [func 0 0
    [SFor false (SDecl 1 (cst 0)) (TV (XOp OLt (loc 1) (cst 4))) (SAssign (VLoc 1) (XOp OAdd (loc 1) (cst 1)))
       (block [SIf false (TV (XOp OEq (loc 1) XIdx)) SContinue SSkip;
               SIf false (TV (XOp OLt XIdx (loc 1))) SBreak SSkip;
               SEmit 1 (loc 1)]);
     SReturn (cst 0)]].

Example C12_ex :
  prog_ok prog_break = true /\
  exists rv G' tr,
    gang_call 100 (opt 4 prog_break) 0 all_on [] [] no_globals = Some (rv, G', tr) /\
    map (fun l => lane_trace l tr) [0; 1; 2; 3] = 
      [[]; [(1, 0%Z)]; [(1, 0%Z); (1, 1%Z)]; [(1, 0%Z); (1, 1%Z); (1, 2%Z)]].
Proof.
  split; [vm_compute; reflexivity|].
  run_closed.
Qed.

(** Finding (a): an unconditional `break` also takes out of the loop the instances that executed
    `continue` in the same iteration: instance 0 should go through the loop 3 times. *)
Theorem C12_break_after_continue_refuted :
  (exists rv G' tr,
     gang_call 100 (opt 2 prog_a) 0 all_on [] [] no_globals = Some (rv, G', tr) /\ rv 0 = 1%Z) /\
  (exists r Gl t,
     lane_call 100 prog_a 0 0 [] [] (fun g => no_globals g 0) = Some (r, Gl, t) /\ r = 3%Z).
Proof. split; run_closed. Qed.

(** ** C13: unsafe code with an all-off mask *)

(** Every effect (e.g. a print or an atomic operation) that the gang performs is performed for at least one
    active instance. *)
Theorem C13_effects_have_an_active_instance_partial :
  forall n o f ok on fm us vs G rv G' tr,
    prog_ok (o_funs o) = true -> guarded_call ok on (o_funs o) f = true ->
    (on = true -> forall l, l < o_width o -> fm l = true) ->
    (exists l, l < o_width o /\ fm l = true) ->
    gang_call n o f fm us vs G = Some (rv, G', tr) ->
    forall k ev, In (k, ev) tr -> exists l z, l < o_width o /\ fm l = true /\ ev l = Some z.
Proof. exact live_trace. Qed.

Example C13_ex :
  (exists rv G' tr,
     gang_call 100 (opt 4 prog_live) 1 all_on [] [fun l => Z.of_nat l + 2]%Z no_globals = Some (rv, G', tr) /\
     map fst tr = [1; 2] /\ map (fun l => lane_trace l tr) [0; 1; 2; 3] =
       [[(2, 21%Z)]; [(2, 38%Z)]; [(1, 63%Z); (2, 63%Z)]; [(1, 63%Z); (2, 63%Z)]]) /\
  (exists rv G' tr,
     gang_call 100 (opt 4 rec_live) 0 (fun l => l <? 2) [] [fun l => Z.of_nat l + 2]%Z no_globals = Some (rv, G', tr) /\
     map (fun l => lane_trace l tr) [0; 1; 2; 3] =
       [[(4, 2%Z); (4, 1%Z)]; [(4, 3%Z); (4, 2%Z); (4, 1%Z)]; []; []]).
Proof. split; run_closed. Qed.

(** The findings below are effects (e.g. a print or a function call) performed when no instance is
    active: the gang's trace has an entry to which no lane contributes. *)
Theorem C13_effect_with_all_lanes_off_refuted :
  exists rv G' tr k ev,
    gang_call 100 (opt 2 prog_b) 0 all_on [] [] no_globals = Some (rv, G', tr) /\
    In (k, ev) tr /\ forall l, l < 2 -> ev l = None.
Proof.
  assert (H : match gang_call 100 (opt 2 prog_b) 0 all_on [] [] no_globals with
              | Some (_, _, tr) =>
                  match nth_error tr 1 with Some (_, ev) => ev 0 = None /\ ev 1 = None | None => False end
              | None => False
              end) by (vm_compute; split; reflexivity).
  destruct (gang_call 100 (opt 2 prog_b) 0 all_on [] [] no_globals) as [[[rv G'] tr]|]; [|contradiction].
  destruct (nth_error tr 1) as [[k ev]|] eqn:E; [|contradiction].
  exists rv, G', tr, k, ev. split; [reflexivity|]. split; [eapply nth_error_In; eauto|].
  intros [|[|l]] Hl; [apply H|apply H|lia].
Qed.

Theorem C13_switch_label_check_refuted :
  exists rv G' tr k ev,
    gang_call 100 (opt 2 prog_ab) 0 lane0 [] [fun l => Z.of_nat l] no_globals = Some (rv, G', tr) /\
    In (k, ev) tr /\ forall l, l < 2 -> ev l = None.
Proof.
  assert (H : match gang_call 100 (opt 2 prog_ab) 0 lane0 [] [fun l => Z.of_nat l] no_globals with
              | Some (_, _, tr) =>
                  match nth_error tr 0 with Some (_, ev) => ev 0 = None /\ ev 1 = None | None => False end
              | None => False
              end) by (vm_compute; split; reflexivity).
  destruct (gang_call 100 (opt 2 prog_ab) 0 lane0 [] [fun l => Z.of_nat l] no_globals) as [[[rv G'] tr]|]; [|contradiction].
  destruct (nth_error tr 0) as [[k ev]|] eqn:E; [|contradiction].
  exists rv, G', tr, k, ev. split; [reflexivity|]. split; [eapply nth_error_In; eauto|].
  intros [|[|l]] Hl; [apply H|apply H|lia].
Qed.

(** Finding (az): a `break` executed by all instances jumps to the loop's step, not past the loop, and the
    step is run with no lane on. *)
Theorem C13_for_step_after_break_refuted :
  exists rv G' tr k ev,
    gang_call 100 (opt 2 prog_az) 0 all_on [] [] no_globals = Some (rv, G', tr) /\
    In (k, ev) tr /\ forall l, l < 2 -> ev l = None.
Proof.
  assert (H : match gang_call 100 (opt 2 prog_az) 0 all_on [] [] no_globals with
              | Some (_, _, tr) =>
                  match nth_error tr 0 with Some (_, ev) => ev 0 = None /\ ev 1 = None | None => False end
              | None => False
              end) by (vm_compute; split; reflexivity).
  destruct (gang_call 100 (opt 2 prog_az) 0 all_on [] [] no_globals) as [[[rv G'] tr]|]; [|contradiction].
  destruct (nth_error tr 0) as [[k ev]|] eqn:E; [|contradiction].
  exists rv, G', tr, k, ev. split; [reflexivity|]. split; [eapply nth_error_In; eauto|].
  intros [|[|l]] Hl; [apply H|apply H|lia].
Qed.

(** Finding (ba): unsafe code that follows a masked `break` within a varying `if` is run with no lane on. *)
Theorem C13_code_after_nested_break_refuted :
  exists rv G' tr k ev,
    gang_call 100 (opt 2 prog_ba) 0 all_on [] [] no_globals = Some (rv, G', tr) /\
    In (k, ev) tr /\ forall l, l < 2 -> ev l = None.
Proof.
  assert (H : match gang_call 100 (opt 2 prog_ba) 0 all_on [] [] no_globals with
              | Some (_, _, tr) =>
                  match nth_error tr 0 with Some (_, ev) => ev 0 = None /\ ev 1 = None | None => False end
              | None => False
              end) by (vm_compute; split; reflexivity).
  destruct (gang_call 100 (opt 2 prog_ba) 0 all_on [] [] no_globals) as [[[rv G'] tr]|]; [|contradiction].
  destruct (nth_error tr 0) as [[k ev]|] eqn:E; [|contradiction].
  exists rv, G', tr, k, ev. split; [reflexivity|]. split; [eapply nth_error_In; eauto|].
  intros [|[|l]] Hl; [apply H|apply H|lia].
Qed.

Print Assumptions C01_gang_matches_serial_instances_partial.
Print Assumptions C02_inactive_instances_untouched_partial.
Print Assumptions C03_gang_terminates_then_instances_do_partial.
Print Assumptions C04_coherent_same_results_partial.
Print Assumptions C05_mask_after_statement_partial.
Print Assumptions C03_instances_terminate_then_gang_does_partial.
Print Assumptions C13_effects_have_an_active_instance_partial.

(** If one choice of coherent statements finishes, so does every other one that passes the check of SpmdGuard, with the same results. *)
Theorem C04_coherent_terminates_partial :
  forall n1 o1 o2 f ok on fm us vs G r1 G1 t1,
    prog_ok (o_funs o1) = true -> o_width o1 = o_width o2 ->
    map plain_fun (o_funs o1) = map plain_fun (o_funs o2) ->
    guarded_call ok on (o_funs o2) f = true ->
    (on = true -> forall l, l < o_width o2 -> fm l = true) ->
    (exists l, l < o_width o2 /\ fm l = true) ->
    gang_call n1 o1 f fm us vs G = Some (r1, G1, t1) ->
    exists n2 r2 G2 t2, gang_call n2 o2 f fm us vs G = Some (r2, G2, t2) /\
    forall l, l < o_width o1 ->
      (fm l = true -> r1 l = r2 l) /\ (forall g, G1 g l = G2 g l) /\ lane_trace l t1 = lane_trace l t2.
Proof.
  intros n1 o1 o2 f ok on fm us vs G r1 G1 t1 HP HW HE HG ON SM H1.
  assert (HP2 : prog_ok (o_funs o2) = true) by (rewrite <- plain_ok, <- HE, plain_ok; auto).
  destruct (C03_instances_terminate_then_gang_does_partial o2 f ok on fm us vs G HP2 HG ON SM) as (n2 & [[r2 G2] t2] & H2).
  { intros l Hl Hf. rewrite <- HW in Hl. destruct (C03_gang_terminates_then_instances_do_partial _ _ _ _ _ _ _ _ HP H1 l Hl Hf) as [rl E].
    rewrite <- plain_lane_call, HE, plain_lane_call in E. eauto. }
  exists n2, r2, G2, t2. split; [exact H2|]. intros l Hl.
  apply (coherent_same n1 n2 o1 o2 f fm us vs G r1 G1 t1 r2 G2 t2 HP HE H1 H2); auto. congruence.
Qed.
Example C04_terminates_ex : guarded_call (Nat.eqb 0) true (map plain_fun prog_live) 1 = true /\
  map plain_fun prog_live = map plain_fun (map plain_fun prog_live) /\ map plain_fun prog_live <> prog_live.
Proof. split; [vm_compute; reflexivity|]. split; [reflexivity|discriminate]. Qed.

(** Finding (aa) again: with `cif` in place of `if` the program finishes. *)
Definition prog_aa' : list fundef :=
  [func 0 0
    [SIf true (lane_is 5) (SFor false SSkip (TU (UConst 1)) SSkip SSkip) SSkip;
     SReturn (cst 2)]].
Theorem C04_termination_refuted :
  map plain_fun prog_aa' = map plain_fun prog_aa /\
  (forall n, gang_call n (opt 2 prog_aa) 0 all_on [] [] no_globals = None) /\
  (exists rv G' tr, gang_call 100 (opt 2 prog_aa') 0 all_on [] [] no_globals = Some (rv, G', tr) /\ rv 0 = 2%Z /\ rv 1 = 2%Z).
Proof. split; [reflexivity|]. split; [exact aa_none|]. run_closed. Qed.

(** A varying switch at any [point] of a checked function, inside other constructs too: for an instance that is on, the serial run of
    the switch gives the values the gang has after it, or leaves by return, break or continue as recorded. *)
Theorem C11_switch_anywhere_partial :
  forall o n dv du K d F D D' c e ss st st',
    prog_ok (o_funs o) = true ->
    point o dv du K d F D D' c (SSwitch (TV e) ss) st ->
    vexec n o c (SSwitch (TV e) ss) st = Some (VNorm, st') ->
    forall l, l < o_width o -> c_fm c l = true -> v_mask st l = true ->
    exists ol s', lexec n (o_funs o) l (SSwitch (TV e) ss) (lane_of l st) = Some (ol, s') /\
      (ol = LNorm -> v_mask st' l = true /\ (forall x, In x (sc_v D') -> v_V st' x l = l_V s' x)) /\
      (ol <> LNorm -> v_mask st' l = false) /\
      (forall g, v_G st' g l = l_G s' g) /\ lane_trace l (v_tr st') = l_tr s' /\ v_rv st' l = l_rv s'.
Proof.
  intros o n dv du K d F D D' c e ss st st' HP HPt HE l Hl Hf Hm.
  pose proof (point_post _ _ _ _ _ _ _ _ _ _ _ _ _ _ HP HPt HE) as (_ & _ & _ & Ac & _).
  destruct (Ac l Hl Hf Hm (lane_of l st) (agree_lane_of l D st)) as (ol & s' & E & X).
  exists ol, s'. split; [exact E|]. cbn [outrel] in X.
  destruct X as [(-> & M & ((A1 & A2 & A3) & A4 & _))|[M R0]].
  - repeat split; auto; congruence.
  - assert (G : agreeG l st' s' /\ ol <> LNorm).
    { destruct ol; cbn [rec0] in R0; try contradiction.
      - destruct R0 as (k & _ & _ & _ & _ & _ & A & _). split; [exact A|discriminate].
      - destruct R0 as (k & _ & _ & _ & _ & _ & _ & A & _). split; [exact A|discriminate].
      - destruct R0 as (_ & _ & _ & A). split; [exact A|discriminate]. }
    destruct G as ((A1 & A2 & A3) & NE). repeat split; auto; congruence.
Qed.

(** The switch of the example above as the whole body of a function. *)
Definition prog_switch_only : fundef :=
  let add z := SAssign (VGlob true 0) (XOp OAdd (XV (VGlob true 0)) (cst z)) in
  func 0 1 [SSwitch (TV (loc 0))
               (SSec None (add 1%Z) (SSec (Some 3%Z) (SSeq (add 10%Z) SBreak)
                 (SSec (Some 1%Z) (add 100%Z) (SSec (Some 2%Z) (SReturn (loc 0)) SNil))))].
Example C11_anywhere_ex :
  exists e ss, f_body prog_switch_only = SSwitch (TV e) ss /\
  exists D D', point (opt 4 [prog_switch_only]) (dep_of (f_body prog_switch_only)) (udep_of (f_body prog_switch_only)) None 0 no_frozen D D'
    (fun_cx all_on (dep_of (f_body prog_switch_only))) (SSwitch (TV e) ss) (call_state [] [fun l => Z.of_nat l] no_globals).
Proof.
  do 2 eexists. split; [reflexivity|].
  exact (point_entry (opt 4 [prog_switch_only]) prog_switch_only all_on [] [fun l => Z.of_nat l] no_globals eq_refl).
Qed.

Print Assumptions C04_coherent_terminates_partial.
Print Assumptions C11_switch_anywhere_partial.
