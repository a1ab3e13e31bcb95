(** C68: the order of commands of a task queue on the GPU. *)
From Coq Require Import List Bool Arith Lia ZArith.
Import ListNotations.
From Verif Require Import QueueModel QueueSpec QueueProofs QueueProofs2 QueueProofs3 QueueProofs4.
Local Open Scope nat_scope.

(** Configurations: one command list; three lists and one hardware queue; three lists and a copy engine. *)
Definition one_list : cfg := Cfg false false 8 8.
Definition three_lists : cfg := Cfg true false 8 8.
Definition with_engine : cfg := Cfg true true 8 8.
Definition whole (i : nat) : list label := [Start i; Effect i; Finish i].
Definition result_phase (o : option sys) : option phase := match o with Some s => Some (s_phase s) | None => None end.

(** Copies to the device finish before kernels of later launches begin; kernels and copies between views of the device finish before
    later copies to the host begin; barriers separate what is before from what is after them (kernels and copies on the device, and
    everything if there is one command list); sync separates everything.  Whatever the device chooses to do, and with any number of
    commands and syncs. *)
Theorem C68_order : forall g strict ls s i j, run g strict (init g) ls = Some s -> ordered g ls i j -> one_after_other ls i j.
Proof. exact ordered_ok. Qed.
Example C68_order_live :
  let ls := [Do (ToDev 0); Do (Launch 0); Do Barrier; Do (Launch 1); Do (ToHost 0); SyncStart] ++ whole 0 ++ whole 1 ++ whole 2 ++ whole 3 ++ whole 4 ++ [SyncEnd] in
  result_phase (run three_lists false (init three_lists) ls) = Some Idle /\ ordered three_lists ls 0 1 /\ ordered three_lists ls 1 3 /\ ordered three_lists ls 3 4.
Proof.
  split; [vm_compute; reflexivity|]. repeat split.
  - constructor. exists (ToDev 0), (Launch 0). repeat split; auto; left; split; eauto.
  - constructor. exists (Launch 0), (Launch 1). repeat split; auto; right; right; left; repeat split; [right; auto|right; auto|exists 2; repeat split; auto].
  - constructor. exists (Launch 1), (ToHost 0). repeat split; auto.
Qed.

(** If every two calls that touch the same data are ordered by these rules, the memory of host and device after sync is what the
    calls give one after the other. *)
Theorem C68_result : forall V (K : nat -> kernel V) g strict ls s m, (forall k, kernel_ok (K k)) -> run g strict (init g) (ls ++ [SyncEnd]) = Some s ->
  engine g = false \/ (multi g = true /\ tidy (batch ls)) ->
  (forall i j a b, is_at ls i a -> is_at ls j b -> i < j -> conflict K a b -> ordered g ls i j) ->
  forall x, device_run K ls m x = sequential K (calls ls) m x.
Proof.
  intros V K g strict ls s m KOK E T PR x. destruct (sync_ok _ _ _ _ E T) as (_ & ALL & _). rewrite run_app in E. destruct (run g strict (init g) ls) as [s1|] eqn:E1; [|discriminate]. eapply data_ok; eauto.
Qed.
(** Kernel 0 adds one to view 0, kernel 1 doubles it. *)
Definition two_kernels (k : nat) : kernel nat :=
  Kernel _ [DevLoc 0] [DevLoc 0] (fun m => put (DevLoc 0) (match k with 0 => m (DevLoc 0) + 1 | _ => m (DevLoc 0) * 2 end) m).
Example C68_result_live :
  (forall k, kernel_ok (two_kernels k)) /\
  let ls := [Do (ToDev 0); Do (Launch 0); Do Barrier; Do (Launch 1); Do (ToHost 0); SyncStart] ++ whole 0 ++ whole 1 ++ whole 2 ++ whole 3 ++ whole 4 in
  result_phase (run three_lists false (init three_lists) (ls ++ [SyncEnd])) = Some Idle /\
  (forall i j a b, is_at ls i a -> is_at ls j b -> i < j -> conflict two_kernels a b -> ordered three_lists ls i j) /\
  device_run two_kernels ls (fun _ => 5) (HostLoc 0) = 12.
Proof.
  split; [|split; [vm_compute; reflexivity|split; [|vm_compute; reflexivity]]].
  - intros k. split; cbn; intros x m.
    + intros H. unfold put. destruct x as [i|i]; cbn; auto. destruct i; cbn; auto. exfalso. auto.
    + intros m' H [<- |[]]. unfold put. cbn. rewrite (H (DevLoc 0)) by auto. auto.
  - intros i j a b A B L C. set (ls := _ ++ _) in *. assert (N : calls ls = [ToDev 0; Launch 0; Barrier; Launch 1; ToHost 0]) by reflexivity. unfold is_at in A, B. rewrite N in A, B.
    assert (JL : j < 5) by (change 5 with (length [ToDev 0; Launch 0; Barrier; Launch 1; ToHost 0]); apply nth_error_Some; congruence).
    assert (AT : forall n o, nth_error [ToDev 0; Launch 0; Barrier; Launch 1; ToHost 0] n = Some o -> is_at ls n o) by (intros n o H; unfold is_at; rewrite N; auto).
    assert (NB : is_barrier a = false /\ is_barrier b = false).
    { split; [destruct a; auto; destruct C as (y & [([] & _)|([] & _)])|destruct b; auto; destruct C as (y & [(_ & [[]|[]])|(_ & [])])]. }
    destruct NB as (NA & NB). pose proof (AT _ _ A) as A'. pose proof (AT _ _ B) as B'.
    assert (P01 : ordered three_lists ls 0 1) by (constructor; exists (ToDev 0), (Launch 0); repeat split; auto; left; split; eauto).
    assert (P13 : ordered three_lists ls 1 3) by (constructor; exists (Launch 0), (Launch 1); repeat split; auto; right; right; left; repeat split; [right; auto|right; auto|exists 2; repeat split; auto]).
    assert (P14 : ordered three_lists ls 1 4) by (constructor; exists (Launch 0), (ToHost 0); repeat split; auto).
    assert (P34 : ordered three_lists ls 3 4) by (constructor; exists (Launch 1), (ToHost 0); repeat split; auto).
    destruct i as [|[|[|[|i]]]]; [| | | |lia]; destruct j as [|[|[|[|[|j]]]]]; try lia; cbn in A, B; injection A as <-; injection B as <-; try discriminate; auto; eapply ord_trans; eauto.
Qed.

(** Without a copy engine, and with one if the last batch is tidy, sync returns only when everything is done; then the lists may be
    used again and every future of a launch is valid. *)
Theorem C68_sync_partial : forall g strict ls s, run g strict (init g) (ls ++ [SyncEnd]) = Some s -> engine g = false \/ (multi g = true /\ tidy (batch ls)) ->
  s_phase s = Idle /\ (forall i o, is_at ls i o -> is_barrier o = false -> In (Finish i) ls) /\ (forall i k, is_at ls i (Launch k) -> In i (s_valid s)).
Proof. exact sync_ok. Qed.
Example C68_sync_live :
  let ls := [Do (ToDev 0); Do (Launch 0); Do (ToHost 0); SyncStart] ++ whole 0 ++ whole 1 ++ whole 2 in
  (multi with_engine = true /\ tidy (batch ls)) /\ result_phase (run with_engine true (init with_engine) (ls ++ [SyncEnd])) = Some Idle.
Proof. split; [|vm_compute; reflexivity]. split; auto. left. exists [ToDev 0; Launch 0], [], 0. split; auto. Qed.

(** A valid future belongs to a kernel or copy that has finished. *)
Theorem C68_future : forall g strict ls s i, run g strict (init g) ls = Some s -> In i (s_valid s) -> In (Finish i) ls.
Proof.
  intros g strict ls s i E H. pose proof (run_inv _ _ _ _ E) as V. apply (v_valid _ _ _ V) in H as (o & A & C & N). apply (v_tdone _ _ _ V).
  destruct (v_pend _ _ _ V i o A) as [D|D]; auto; [destruct o; auto; discriminate|exfalso; auto].
Qed.

(** sync can always return: the events and barriers of the command lists cannot wait for each other. *)
Theorem C68_progress : forall g strict ls s, run g strict (init g) ls = Some s -> s_phase s = Syncing ->
  exists more s', Forall (fun l => exists i, l = Start i \/ l = Effect i \/ l = Finish i) more /\ run g strict (init g) (ls ++ more ++ [SyncEnd]) = Some s' /\ s_phase s' = Idle.
Proof.
  intros g strict ls s E PH. destruct (sync_returns g strict _ ls s (le_n _) (run_inv _ _ _ _ E) PH) as (more & s' & D & R & P). exists more, s'. split; [exact D|]. rewrite run_app, E. auto.
Qed.
Example C68_progress_live : result_phase (run with_engine true (init with_engine) [Do (Launch 0); Do (ToDev 0); Do (Launch 1); Do (ToHost 0); SyncStart; Start 1; Effect 1]) = Some Syncing.
Proof. vm_compute. reflexivity. Qed.
(** The device is never stuck: while something is left to do it can do a step. *)
Theorem C68_no_deadlock : forall g strict ls s, run g strict (init g) ls = Some s -> s_phase s = Syncing -> forallb (fun c => memn (c_id c) (s_done s)) (s_sub s) = false ->
  exists i s', step g strict s (Start i) = Some s' \/ step g strict s (Effect i) = Some s' \/ step g strict s (Finish i) = Some s'.
Proof.
  intros g strict ls s E PH F. destruct (progress_step g strict ls s (run_inv _ _ _ _ E) PH F) as (l & s' & ST & _ & _ & i & [-> |[-> | ->]]); exists i, s'; auto.
Qed.

(** Calls fail only when the events are used up: launches and copies between views of the device after max_launches of them since the
    last sync, copies to the device after max_copies. *)
Theorem C68_limit : forall g strict ls s o, run g strict (init g) (ls ++ [Fail o]) = Some s ->
  (is_compute o = true /\ max_launches g <= length (filter is_compute (batch ls))) \/ (is_todev o = true /\ max_copies g <= length (filter is_todev (batch ls))).
Proof. exact fail_limit. Qed.
Example C68_limit_live : let g := Cfg true false 2 1 in
  result_phase (run g true (init g) ([Do (Launch 0); Do (CopyDev 1 0)] ++ [Fail (Launch 0)])) = Some Idle /\ result_phase (run g true (init g) ([Do (ToDev 0)] ++ [Fail (ToDev 0)])) = Some Idle.
Proof. split; vm_compute; reflexivity. Qed.

(** With several command lists a barrier does not hold back copies to the device: the copy of a later call happens before the kernel
    that was launched before the barrier. *)
Theorem C68_barrier_copy_refuted : exists s, let ls := [Do (Launch 0); Do Barrier; Do (ToDev 0); SyncStart] ++ whole 2 ++ whole 0 ++ whole 1 in
  run three_lists true (init three_lists) (ls ++ [SyncEnd]) = Some s /\ ~ one_after_other ls 0 2 /\
  device_run two_kernels ls (fun l => match l with HostLoc _ => 7 | DevLoc _ => 1 end) (DevLoc 0) = 8 /\
  sequential two_kernels (calls ls) (fun l => match l with HostLoc _ => 7 | DevLoc _ => 1 end) (DevLoc 0) = 7.
Proof.
  eexists. split; [vm_compute; reflexivity|]. split; [|split; vm_compute; reflexivity].
  intros H. specialize (H _ _ (eq_refl : _ = [Do (Launch 0); Do Barrier; Do (ToDev 0); SyncStart] ++ Start 2 :: _)). cbn in H. intuition discriminate.
Qed.
(** With several command lists a barrier after a copy to the host does not hold back the kernels of later launches: the host sees what
    they write. *)
Theorem C68_barrier_host_refuted : exists s, let ls := [Do (Launch 0); Do (ToHost 0); Do Barrier; Do (Launch 1); SyncStart] ++ whole 0 ++ whole 2 ++ whole 3 ++ whole 1 in
  run three_lists true (init three_lists) (ls ++ [SyncEnd]) = Some s /\ ~ one_after_other ls 1 3 /\
  device_run two_kernels ls (fun _ => 5) (HostLoc 0) = 12 /\ sequential two_kernels (calls ls) (fun _ => 5) (HostLoc 0) = 6.
Proof.
  eexists. split; [vm_compute; reflexivity|]. split; [|split; vm_compute; reflexivity].
  intros H. specialize (H _ _ (eq_refl : _ = ([Do (Launch 0); Do (ToHost 0); Do Barrier; Do (Launch 1); SyncStart] ++ whole 0 ++ whole 2) ++ Start 3 :: _)). cbn in H. intuition discriminate.
Qed.
(** With a copy engine a copy between views of the device does not wait for copies to the device, not even with a barrier in between:
    it copies what was there before. *)
Theorem C68_copy_view_refuted : exists s, let ls := [Do (ToDev 0); Do Barrier; Do (CopyDev 1 0); SyncStart] ++ whole 1 ++ whole 2 ++ whole 0 in
  run with_engine true (init with_engine) (ls ++ [SyncEnd]) = Some s /\ ~ one_after_other ls 0 2 /\
  device_run two_kernels ls (fun l => match l with HostLoc _ => 7 | DevLoc _ => 1 end) (DevLoc 1) = 1 /\
  sequential two_kernels (calls ls) (fun l => match l with HostLoc _ => 7 | DevLoc _ => 1 end) (DevLoc 1) = 7.
Proof.
  eexists. split; [vm_compute; reflexivity|]. split; [|split; vm_compute; reflexivity].
  intros H. specialize (H _ _ (eq_refl : _ = ([Do (ToDev 0); Do Barrier; Do (CopyDev 1 0); SyncStart] ++ whole 1) ++ Start 2 :: _)). cbn in H. intuition discriminate.
Qed.
(** With a copy engine sync returns while a copy to the device that follows the last launch is not done, and resets its command list. *)
Theorem C68_sync_copy_refuted : let ls := [Do (Launch 0); Do (ToDev 0); SyncStart] ++ whole 0 in
  result_phase (run with_engine true (init with_engine) (ls ++ [SyncEnd])) = Some Misused /\ is_at ls 1 (ToDev 0) /\ ~ In (Finish 1) ls.
Proof. split; [vm_compute; reflexivity|]. split; [reflexivity|]. cbn. intuition discriminate. Qed.
(** With a copy engine sync returns while a kernel launched after the last copy to the host still runs, and resets its command list. *)
Theorem C68_sync_kernel_refuted : let ls := [Do (Launch 0); Do (ToHost 0); Do (Launch 1); SyncStart] ++ whole 0 ++ whole 1 in
  result_phase (run with_engine true (init with_engine) (ls ++ [SyncEnd])) = Some Misused /\ is_at ls 2 (Launch 1) /\ ~ In (Finish 2) ls.
Proof. split; [vm_compute; reflexivity|]. split; [reflexivity|]. cbn. intuition discriminate. Qed.

Local Open Scope Z_scope.
(** The time of a future is the difference of the two timestamps modulo the size of the counter, in units of the timer. *)
Theorem C68_time : forall b res st en, 0 <= b <= 64 -> 0 <= st < 2 ^ b -> 0 <= en < 2 ^ b -> 0 <= res -> future_time b res st en = ((en - st) mod 2 ^ b * res) mod 2 ^ 64.
Proof.
  intros b res st en B S E R. assert (P : 2 ^ b <= 2 ^ 64) by (apply Z.pow_le_mono_r; lia). assert (P0 : 0 < 2 ^ b) by lia. unfold future_time.
  assert (MV : max_value b = 2 ^ b - 1) by (unfold max_value; destruct (Z.ltb_spec b 64); auto; replace b with 64 by lia; auto).
  destruct (Z.leb_spec st en); cbn zeta; f_equal; f_equal.
  - rewrite !Z.mod_small; lia.
  - rewrite MV. replace (2 ^ b - 1 - st + en + 1) with (en - st + 2 ^ b) by lia. rewrite Z.mod_small by lia. rewrite <- (Z.mod_add (en - st) 1) by lia. rewrite Z.mul_1_l, Z.mod_small; lia.
Qed.
Example C68_time_live : future_time 32 83 (2 ^ 32 - 10) 5 = 15 * 83.
Proof. vm_compute. reflexivity. Qed.
(** Launches have the size that was asked for if it is a multiple of the group size the driver suggests. *)
Theorem C68_dims_partial : forall dim suggested, 0 <= dim < 2 ^ 32 -> 0 <= suggested -> (Z.max suggested 1 | dim) -> invocations dim suggested = dim.
Proof.
  intros dim sg D S (q & ->). unfold invocations. cbn zeta. rewrite Z.mod_small by lia. rewrite Z.div_mul by lia. auto.
Qed.
Example C68_dims_live : (Z.max 16 1 | 4096) /\ invocations 4096 16 = 4096.
Proof. split; [exists 256; reflexivity|vm_compute; reflexivity]. Qed.
(** Otherwise the remainder is not computed, and sizes are taken modulo 2^32. *)
Theorem C68_dims_refuted : invocations 100 16 = 96 /\ invocations (2 ^ 32 + 1) 1 = 1.
Proof. split; vm_compute; reflexivity. Qed.
Print Assumptions C68_order.
Print Assumptions C68_result.
Print Assumptions C68_sync_partial.
Print Assumptions C68_future.
Print Assumptions C68_progress.
Print Assumptions C68_no_deadlock.
Print Assumptions C68_limit.
Print Assumptions C68_barrier_copy_refuted.
Print Assumptions C68_barrier_host_refuted.
Print Assumptions C68_copy_view_refuted.
Print Assumptions C68_sync_copy_refuted.
Print Assumptions C68_sync_kernel_refuted.
Print Assumptions C68_time.
Print Assumptions C68_dims_partial.
Print Assumptions C68_dims_refuted.
