(** Property C81: programs of the ISPC Run Time on the CPU and on the GPU. *)
From Coq Require Import ZArith List Bool Arith Lia.
From Verif Require Import PortModel PortSpec PortProofs.
Import ListNotations.

Section Props.
Variable views : nat -> kind.
Variable size : nat -> nat.
Variable kernels : nat -> kernel.
Let start_ok (m h d : memory) : Prop :=
  (forall k, kernel_ok size (kernels k)) /\ sized size m /\ sized size h /\ sized size d /\ (forall v, views v = App -> h v = m v).

(** A program that copies data to the device before it is used there and back before the host uses it, that does not touch data that is
    in use, and that fills command lists one at a time and submits each of them once, sees the same on both devices, whenever the GPU does
    its work, and whatever is in uninitialized memory. *)
Theorem C81_same_partial m h d p g : start_ok m h d -> good_program views size kernels p -> gpu_run views size kernels p (gpu_start h d) g ->
  g_seen g = c_seen (cpu_run views size kernels p (cpu_start m)).
Proof.
  intros (K & Sm & Sh & Sd & E) [s' Fo] R. apply (i_seen views size kernels s'). eapply runs_inv; eauto. now apply inv_start.
Qed.

(** Such a program does not fail on the GPU: however far it got, it can be continued to the end. *)
Theorem C81_no_failure m h d p1 p2 g : start_ok m h d -> good_program views size kernels (p1 ++ p2) -> gpu_run views size kernels p1 (gpu_start h d) g ->
  exists g', gpu_run views size kernels p2 g g'.
Proof.
  intros (K & Sm & Sh & Sd & E) [s' Fo] R. apply follow_app in Fo. destruct Fo as (s1 & F1 & F2).
  eapply can_run; eauto. eapply runs_inv; eauto. apply (inv_start views size kernels m); auto.
Qed.

(** None of its commands fails, and futures of launches in the task queue are valid after sync. *)
Theorem C81_valid m h d p e : start_ok m h d -> good_program views size kernels p -> In e (c_seen (cpu_run views size kernels p (cpu_start m))) ->
  (forall c, e <> Failed c) /\ (forall i, e <> IsValid i false).
Proof.
  intros (K & Sm & Sh & Sd & E) [s' Fo]. eapply (seen_ok views size kernels K p (plan0 views) (cpu_start m) (gpu_start h d)); eauto.
  apply inv_start; auto.
Qed.

(** Copies that do not fit are refused by both, and nothing happens. *)
Theorem C81_too_big l dst src n c g : size dst < n \/ size src < n -> ~ In l (g_closed g) ->
  let o := Give l (Copy dst src n) in let c' := cpu_op views size kernels o c in
  c_mem c' = c_mem c /\ c_seen c' = c_seen c ++ [Failed (Copy dst src n)] /\
  exists g', gpu_op views size kernels o g = Some g' /\ g_host g' = g_host g /\ g_dev g' = g_dev g /\ g_lists g' = g_lists g /\ g_queue g' = g_queue g /\
    g_seen g' = g_seen g ++ [Failed (Copy dst src n)].
Proof.
  intros T C o c'. assert (B : (size dst <? n) || (size src <? n) = true) by (apply orb_true_iff; rewrite !Nat.ltb_lt; exact T).
  subst o c'. cbn [cpu_op gpu_op too_big]. rewrite B, (proj2 (memn_out _ _) C). cbn [orb c_mem c_seen]. repeat split. eexists. split; [reflexivity|]. auto.
Qed.
End Props.

(** View 0: application memory, 1: device memory, others: shared memory; kernel k adds one to view k. *)
Definition views3 (v : nat) : kind := match v with 0 => App | 1 => Dev | _ => Shared end.
Definition one (v : nat) : nat := 1.
Definition incr (k : nat) : kernel := Kernel [k] [k] (fun m v => map (Z.add 1) (m k)).
Definition zeros : memory := fun _ => [0%Z].
Definition gpu_sees (p : list op) (l : list event) : Prop := exists g, gpu_run views3 one incr p (gpu_start zeros zeros) g /\ g_seen g = l.
Definition cpu_sees (p : list op) (l : list event) : Prop := c_seen (cpu_run views3 one incr p (cpu_start zeros)) = l.

Lemma incr_ok k : kernel_ok one (incr k).
Proof.
  split.
  - intros m1 m2 H w _. cbn. rewrite (H k); [reflexivity|now left].
  - intros m H w _. cbn. rewrite map_length. exact (H k).
Qed.
(** A program of this kind, with a command list and with the task queue. *)
Definition example : list op :=
  [Give 1 (ToDev 0); Give 1 (Launch 0); Submit 0; Write 2 (fun _ => [7%Z]); Wait; Reset 0; Give 1 (Copy 1 0 1); Give 1 (ToHost 0); Submit 0; Wait; Read 0;
   Give 0 (Launch 1); Give 0 (Launch 2); Give 0 (Copy 2 1 1); Sync; Read 2; Valid 4; Valid 5].
Ltac out := let H := fresh in intro H; vm_compute in H; repeat (destruct H as [H|H]; [discriminate H|]); exact H.
Ltac cmd := first
  [ apply C_todev; reflexivity | apply C_tohost; reflexivity | apply C_barrier
  | apply C_launch; intros v [<-|[]]; reflexivity
  | apply C_copy; [discriminate|apply le_n|apply le_n|reflexivity|first [left; reflexivity|right; reflexivity]] ].
Ltac go := eapply F_cons; [first
  [ eapply F_give; [first [left; reflexivity|right; eexists; reflexivity]|out|first [discriminate|reflexivity]|cmd]
  | eapply F_submit; reflexivity
  | apply F_fill; [reflexivity|out|reflexivity]
  | apply F_wait
  | apply F_reset; [vm_compute; tauto|out]
  | apply F_read; [reflexivity|reflexivity|out]
  | apply F_sync; first [left; reflexivity|right; eexists; reflexivity]
  | apply F_valid; vm_compute; tauto]|
  cbn [p_host p_dev p_open p_busy p_flying p_closed p_count p_started p_valid plan0 app uses k_reads k_writes incr filter Nat.eqb negb andb is_launch views3 is_shared]].
Example C81_same_partial_live : good_program views3 one incr example /\ gpu_sees example [Saw 0 [1%Z]; Saw 2 [2%Z]; IsValid 4 true; IsValid 5 true].
Proof.
  split.
  - eexists. unfold example. do 18 go. apply F_nil.
  - unfold gpu_sees. apply (exec_seen _ _ _ 9). vm_compute. reflexivity.
Qed.

Example C81_too_big_live : one 0 < 2 /\ gpu_sees [Give 1 (Copy 0 1 2)] [Failed (Copy 0 1 2)].
Proof. split; [unfold one; lia|]. apply (exec_seen _ _ _ 9). vm_compute. reflexivity. Qed.

(** A command list that is submitted twice is executed twice by the GPU and once by the CPU. *)
Theorem C81_submit_twice_refuted : let p := [Write 2 (fun _ => [0%Z]); Give 1 (Launch 2); Submit 0; Wait; Submit 0; Wait; Read 2] in
  gpu_sees p [Saw 2 [2%Z]] /\ cpu_sees p [Saw 2 [1%Z]].
Proof. split; [apply (exec_seen _ _ _ 9)|]; vm_compute; reflexivity. Qed.
(** Commands of a list that is never submitted, or reset before, are executed by the CPU. *)
Theorem C81_not_submitted_refuted : let p := [Write 2 (fun _ => [0%Z]); Give 1 (Launch 2); Reset 0; Read 2] in
  gpu_sees p [Saw 2 [0%Z]] /\ cpu_sees p [Saw 2 [1%Z]].
Proof. split; [apply (exec_seen _ _ _ 9)|]; vm_compute; reflexivity. Qed.
(** Data that the host writes before it submits the list is not seen by the commands of the list on the CPU. *)
Theorem C81_write_before_submit_refuted : let p := [Give 1 (Launch 2); Write 2 (fun _ => [5%Z]); Submit 0; Wait; Read 2] in
  gpu_sees p [Saw 2 [6%Z]] /\ cpu_sees p [Saw 2 [5%Z]].
Proof. split; [apply (exec_seen _ _ _ 9)|]; vm_compute; reflexivity. Qed.
(** Lists are executed in the order in which they are submitted by the GPU, in the order in which they are filled by the CPU. *)
Theorem C81_order_of_lists_refuted :
  let p := [Write 2 (fun _ => [0%Z]); Write 3 (fun _ => [5%Z]); Give 1 (Launch 2); Give 2 (Copy 2 3 1); Submit 1; Submit 0; Wait; Read 2] in
  gpu_sees p [Saw 2 [6%Z]] /\ cpu_sees p [Saw 2 [5%Z]].
Proof. split; [apply (exec_seen _ _ _ 9)|]; vm_compute; reflexivity. Qed.
(** The future of a launch in a command list does not become valid on the GPU. *)
Theorem C81_list_future_refuted : let p := [Write 2 (fun _ => [0%Z]); Give 1 (Launch 2); Submit 0; Wait; Valid 0] in
  gpu_sees p [IsValid 0 false] /\ cpu_sees p [IsValid 0 true].
Proof. split; [apply (exec_seen _ _ _ 9)|]; vm_compute; reflexivity. Qed.
(** Copying device memory that has no memory of the host fails on the GPU and is ignored on the CPU. *)
Theorem C81_no_host_memory_refuted : let p := [Give 0 (ToHost 1); Sync] in gpu_sees p [Failed (ToHost 1)] /\ cpu_sees p [].
Proof. split; [apply (exec_seen _ _ _ 9)|]; vm_compute; reflexivity. Qed.
Print Assumptions C81_same_partial.
Print Assumptions C81_no_failure.
Print Assumptions C81_valid.
Print Assumptions C81_submit_twice_refuted.
Print Assumptions C81_not_submitted_refuted.
Print Assumptions C81_write_before_submit_refuted.
Print Assumptions C81_order_of_lists_refuted.
Print Assumptions C81_list_future_refuted.
Print Assumptions C81_no_host_memory_refuted.
Print Assumptions C81_too_big.
