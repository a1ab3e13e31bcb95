(** C40: the lifetime of the runtime's objects. *)
From Coq Require Import ZArith List Bool Lia.
From Verif Require Import RefCountModel RefCountSpec RefCountProofs4.
Import ListNotations.
Open Scope Z_scope.

(** A program that uses handles it (or an object it refers to) has references to, and that stays clear of
    static linking and of futures kept longer than their task queue, never uses freed memory, frees
    anything twice or uses a closed library. *)
Theorem C40_no_crash_partial ops : always correct_use ops -> always avoids ops -> run ops rt0 [] <> Crash.
Proof. exact (no_crash ops). Qed.

(** At every point, an object exists exactly when the program has a reference to it, or to an object that
    keeps it. *)
Theorem C40_exists_iff_referenced_partial ops st h x :
  always correct_use ops -> always avoids ops -> run ops rt0 [] = Ok (st, h) -> (alive st x = true <-> lives h x).
Proof. exact (exists_iff ops st h x). Qed.

(** ispcrtUseCount is the number of references of the program plus the number of objects that keep it. *)
Theorem C40_use_count_partial ops st h x keepers :
  always correct_use ops -> always avoids ops -> run ops rt0 [] = Ok (st, h) -> lives h x ->
  NoDup keepers -> (forall p, In p keepers <-> lives h p /\ holds h p x) ->
  use_count st x = Ok (app_refs h x + Z.of_nat (length keepers)).
Proof. exact (count_ok ops st h x keepers). Qed.

(** A program that gave back its references left nothing behind: no object, no open library. *)
Theorem C40_no_leak_partial ops st h :
  always correct_use ops -> always avoids ops -> run ops rt0 [] = Ok (st, h) ->
  (forall x, app_refs h x <= 0) -> (forall x, alive st x = false) /\ (forall lib, r_dl st lib = 0).
Proof. exact (no_leak_ok ops st h). Qed.

(** The C++ wrappers: the program never crashes; its references are the variables; what a variable refers
    to exists, and when no variable refers to anything everything is freed. *)
Theorem C40_wrappers_partial l : valways correct_cpp l -> valways careful_cpp l ->
  exists p n, vrun l prog0 = Ok p /\ (forall v, (n <= v)%nat -> p_vars p v = None) /\
    (forall x, app_refs (p_hist p) x = Z.of_nat (variables (p_vars p) x n)) /\
    (forall x, alive (p_st p) x = true <-> lives (p_hist p) x) /\
    (forall v x, handle (p_vars p) v = Some x -> alive (p_st p) x = true) /\
    ((forall v, handle (p_vars p) v = None) -> (forall x, alive (p_st p) x = false) /\ (forall lib, r_dl (p_st p) lib = 0)).
Proof. exact (wrappers_ok l). Qed.

(** IntrusivePtr: an object exists exactly when a pointer refers to it, and its counter is the number of
    these. *)
Theorem C40_intrusive_partial l : ialways correct_ptr l -> ialways careful_ptr l ->
  exists p n, irun l iprog0 = Ok p /\ (forall v, (n <= v)%nat -> i_vars p v = None) /\
    (forall x, alive (i_st p) x = true <-> exists v, handle (i_vars p) v = Some x) /\
    (forall x, alive (i_st p) x = true -> o_count (r_obj (i_st p) x) = Z.of_nat (variables (i_vars p) x n)).
Proof. exact (pointers_ok l). Qed.

(** Threads that take, hand on and drop references to one object in any order: it is never used after it
    was freed, it is freed at most once, only when no thread has a reference any more, and always once
    they have all dropped theirs and finished. *)
Theorem C40_threads t s : treach (alone t) s ->
  s_after s = false /\ (s_deletes s <= 1)%nat /\
  (s_deletes s = 1%nat -> forall u, t_refs (s_threads s u) = 0%nat /\ t_pc (s_threads s u) = Idle) /\
  ((forall u, t_refs (s_threads s u) = 0%nat /\ t_pc (s_threads s u) = Idle) -> s_deletes s = 1%nat).
Proof. exact (threads_ok t s). Qed.

(** Static linking: the module is a new object with one reference, nothing else changes, and its functions and kernels
    can be used.  Missing: releasing it (see C40_static_link_refuted). *)
Theorem C40_static_link_partial ops st h d ms :
  always correct_use ops -> always avoids ops -> run ops rt0 [] = Ok (st, h) -> correct_use h (StaticLink d ms) ->
  exists st' x, step (StaticLink d ms) st = Ok (st', Some x) /\ alive st x = false /\ alive st' x = true /\ use_count st' x = Ok 1 /\
    (forall y, alive st y = true -> alive st' y = true /\ use_count st' y = use_count st y) /\
    (forall found, step (FunctionPtr x found) st' <> Crash) /\ (forall found, step (NewKernel d x found) st' <> Crash).
Proof. exact (link_ok ops st h d ms). Qed.

(** *** Examples: the hypotheses are met *)
Ltac kinds := eexists; split; [cbn; tauto|reflexivity].
Ltac holding := repeat first [apply holds_new; reflexivity|apply holds_module|apply holds_later; [|cbn; discriminate]].
Ltac held_by q := apply (lives_held _ q); [apply lives_app; reflexivity|solve [holding]].
Ltac living := first [apply lives_app; reflexivity|held_by 3%nat|held_by 4%nat|held_by 5%nat|held_by 10%nat
                     |apply (lives_held _ 5); [held_by 4%nat|solve [holding]]].
Ltac rightly :=
  split; [intros k x H; cbn in H; repeat (destruct H as [H|H]; [injection H as <- <-; split; [living|kinds]|]); destruct H
         |cbn; first [exact Logic.I|reflexivity|living]].
Ltac not_queue :=
  let o := fresh in let H := fresh in let M := fresh in
  intros (o & H & M); cbn in H; repeat (destruct H as [H|H]; [first [discriminate H|injection H; intros; subst; discriminate M]|]); destruct H.

(** A module, a kernel that outlives the program's reference to it, a queue with a command list, a copy
    whose future is kept beyond the reset of the list. *)
Definition ex_ops : list op :=
  [NewDevice; LoadModule 0 (Some 7%nat) true; NewKernel 0 2 true; Release 2; NewQueue 0; CreateList 4; NewView 0;
   ListCopy 5 6; Retain 7; ListLaunch 5 3 (Some 6%nat); Submit 5; ListReset 5; NewTaskQueue 0; QueueLaunch 10 3 None].
Definition ex_end : list op := [Release 10; Release 7; Release 3; Release 4; Release 6; Release 0].
Definition ex_hist : hist :=
  [(QueueLaunch 10 3 None, Some 11%nat); (NewTaskQueue 0, Some 10%nat); (ListReset 5, None); (Submit 5, Some 9%nat);
   (ListLaunch 5 3 (Some 6%nat), Some 8%nat); (Retain 7, None); (ListCopy 5 6, Some 7%nat); (NewView 0, Some 6%nat);
   (CreateList 4, Some 5%nat); (NewQueue 0, Some 4%nat); (Release 2, None); (NewKernel 0 2 true, Some 3%nat);
   (LoadModule 0 (Some 7%nat) true, Some 2%nat); (NewDevice, Some 0%nat)].

Example C40_ex_history : hist_of (run ex_ops rt0 []) = Some ex_hist.
Proof. vm_compute. reflexivity. Qed.

Example C40_ex_correct : always correct_use ex_ops /\ always avoids ex_ops.
Proof.
  split; (apply (tails_always _ _ ex_hist); [exact C40_ex_history|]); unfold ex_hist; cbn [tails fst].
  - repeat (split; [rightly|]). exact Logic.I.
  - repeat (split; [first [exact Logic.I|solve [not_queue]]|]). exact Logic.I.
Qed.

Example C40_ex_link : correct_use ex_hist (StaticLink 0 [2%nat; 2%nat]).
Proof. unfold ex_hist. rightly. Qed.

(** What exists then, and the counters. *)
Example C40_ex_state : exists st, run ex_ops rt0 [] = Ok (st, ex_hist) /\
  filter (alive st) (seq 0 12) = [0; 2; 3; 4; 5; 6; 7; 10; 11]%nat /\
  use_count st 2 = Ok 1 /\ use_count st 7 = Ok 1 /\ use_count st 8 = Crash /\ r_dl st 7 = 1.
Proof. eexists. split; [vm_compute; reflexivity|]. vm_compute. auto. Qed.

Lemma ex_future f : holds ex_hist 10 f -> f = 11%nat.
Proof.
  unfold ex_hist. intros H. repeat match goal with H : holds (_ :: _) _ _ |- _ => inversion H; clear H; subst; try discriminate; try (cbn in *; congruence) | H : holds [] _ _ |- _ => inversion H end.
Qed.

Example C40_ex_end : always correct_use (ex_ops ++ ex_end) /\ always avoids (ex_ops ++ ex_end) /\
  exists st h, run (ex_ops ++ ex_end) rt0 [] = Ok (st, h) /\ (forall x, app_refs h x <= 0).
Proof.
  set (h := [(Release 0, None); (Release 6, None); (Release 4, None); (Release 3, None); (Release 7, None); (Release 10, @None nat)] ++ ex_hist).
  assert (E : hist_of (run (ex_ops ++ ex_end) rt0 []) = Some h) by (vm_compute; reflexivity).
  split; [|split].
  - apply (tails_always _ _ h E). unfold h, ex_hist. cbn [tails fst app]. repeat (split; [rightly|]). exact Logic.I.
  - apply (tails_always _ _ h E). unfold h. cbn [tails fst app]. repeat (split; [first [exact Logic.I|solve [not_queue]]|]).
    split; [intros _ _ f Hf; apply ex_future in Hf; subst f; reflexivity|].
    unfold ex_hist. cbn [tails fst app]. repeat (split; [first [exact Logic.I|solve [not_queue]]|]). exact Logic.I.
  - destruct (run (ex_ops ++ ex_end) rt0 []) as [[st h1]|]; [|discriminate]. cbn in E. injection E as ->. exists st, h. split; [reflexivity|].
    intros x. unfold h, ex_hist. do 12 (destruct x as [|x]; [vm_compute; discriminate|]). vm_compute. discriminate.
Qed.

(** A task queue deletes its futures whatever their counters: the program that keeps one longer uses freed
    memory. *)
Theorem C40_task_queue_future_refuted :
  exists ops, always correct_use ops /\ (forall d ms, ~ In (StaticLink d ms) ops) /\ run ops rt0 [] = Crash.
Proof.
  exists ([NewDevice; LoadModule 0 (Some 7%nat) true; NewKernel 0 2 true; NewTaskQueue 0; QueueLaunch 4 3 None; Retain 5; Release 4] ++ [Query KFuture 5]).
  split; [|split; [|vm_compute; reflexivity]].
  - set (h := [(Release 4, None); (Retain 5, None); (QueueLaunch 4 3 None, Some 5%nat); (NewTaskQueue 0, Some 4%nat); (NewKernel 0 2 true, Some 3%nat);
      (LoadModule 0 (Some 7%nat) true, Some 2%nat); (NewDevice, Some 0%nat)]).
    match goal with |- always _ (?l ++ _) => assert (E : hist_of (run l rt0 []) = Some h) by (vm_compute; reflexivity) end.
    apply always_snoc.
    + apply (tails_always _ _ h E). unfold h. cbn [tails fst]. repeat (split; [rightly|]). exact Logic.I.
    + intros st h' R. rewrite R in E. cbn in E. injection E as ->. unfold h. rightly.
  - intros d ms H. cbn in H. repeat (destruct H as [H|H]; [discriminate|]). exact H.
Qed.

(** Statically linked modules share the open libraries of their parts: releasing both closes a library
    twice. *)
Theorem C40_static_link_refuted :
  exists ops, always correct_use ops /\ (forall d, ~ In (NewTaskQueue d) ops) /\ run ops rt0 [] = Crash.
Proof.
  exists ([NewDevice; LoadModule 0 (Some 7%nat) true; StaticLink 0 [2%nat]; Release 2] ++ [Release 3]).
  split; [|split; [|vm_compute; reflexivity]].
  - set (h := [(Release 2, None); (StaticLink 0 [2%nat], Some 3%nat); (LoadModule 0 (Some 7%nat) true, Some 2%nat); (NewDevice, Some 0%nat)]).
    match goal with |- always _ (?l ++ _) => assert (E : hist_of (run l rt0 []) = Some h) by (vm_compute; reflexivity) end.
    apply always_snoc.
    + apply (tails_always _ _ h E). unfold h. cbn [tails fst]. repeat (split; [rightly|]). exact Logic.I.
    + intros st h' R. rewrite R in E. cbn in E. injection E as ->. unfold h. rightly.
  - intros d H. cbn in H. repeat (destruct H as [H|H]; [discriminate|]). exact H.
Qed.

(** *** Wrappers *)
Ltac cpp :=
  split; [split; [cbn; intros v H; first [discriminate H|injection H as <-; reflexivity]
                 |split; [cbn; intros w H; repeat (destruct H as [H|H]; [subst w; cbn; discriminate|]); destruct H
                         |cbn; intros o H; first [discriminate H|injection H as <-;
                            split; [reflexivity|split; [cbn; intros k x H; repeat (destruct H as [H|H]; [injection H as <- <-; split; [first [exists 0%nat; reflexivity|exists 1%nat; reflexivity|exists 2%nat; reflexivity|exists 5%nat; reflexivity]|kinds]|]); destruct H
                                                       |cbn; first [split; [discriminate|reflexivity]|reflexivity|discriminate]]]]]]
         |lazy -[correct_cpp careful_cpp]].

(** Assigning to a wrapper leaks what it referred to. *)
Theorem C40_copy_assign_leak_refuted :
  exists l p x, valways correct_cpp l /\ vrun l prog0 = Ok p /\ (forall v, p_vars p v = None) /\ alive (p_st p) x = true.
Proof.
  exists [VNew 0 NewDevice; VNew 1 NewDevice; VAssign 0 1; VEnd 0; VEnd 1]. eexists _, 0%nat. split.
  - apply vchecked_always. cbn [vchecked]. repeat cpp. exact Logic.I.
  - split; [lazy; reflexivity|]. split; [|reflexivity]. intros v. do 2 (destruct v as [|v]; [reflexivity|]). reflexivity.
Qed.

(** So does a move assignment. *)
Theorem C40_move_assign_leak_refuted :
  exists l p x, valways correct_cpp l /\ vrun l prog0 = Ok p /\ (forall v, p_vars p v = None) /\ alive (p_st p) x = true.
Proof.
  exists [VNew 0 NewDevice; VNew 1 NewDevice; VMoveAssign 0 1; VEnd 0; VEnd 1]. eexists _, 0%nat. split.
  - apply vchecked_always. cbn [vchecked]. repeat cpp. exact Logic.I.
  - split; [lazy; reflexivity|]. split; [|reflexivity]. intros v. do 2 (destruct v as [|v]; [reflexivity|]). reflexivity.
Qed.

(** Copying a wrapper that was moved from uses a null pointer. *)
Theorem C40_copy_null_refuted : exists l, valways correct_cpp l /\ vrun l prog0 = Crash.
Proof.
  exists [VNew 0 NewDevice; VMove 1 0; VCopy 2 0]. split; [|lazy; reflexivity].
  apply vchecked_always. cbn [vchecked]. repeat cpp. exact Logic.I.
Qed.

(** The hypotheses about wrappers are met. *)
Definition ex_wrappers : list vop :=
  [VNew 0 NewDevice; VNew 1 (NewQueue 0); VShare 2 (CreateList 1); VShare 3 (Submit 2); VCopy 4 3; VEnd 1; VEnd 2;
   VMove 5 4; VEnd 4; VEnd 3; VCall (Query KFence 3); VEnd 5; VEnd 0].
Ltac cpp2 :=
  split; [cbn; first [exact Logic.I|discriminate|intros q H; injection H as <-; cbn; not_queue|intros q H; discriminate]
         |lazy -[correct_cpp careful_cpp]].
Example C40_wrappers_ex : valways correct_cpp ex_wrappers /\ valways careful_cpp ex_wrappers /\
  exists p, vrun ex_wrappers prog0 = Ok p /\ r_next (p_st p) = 4%nat /\ (forall v, p_vars p v = None).
Proof.
  split; [|split].
  - apply vchecked_always. unfold ex_wrappers. cbn [vchecked]. repeat cpp. exact Logic.I.
  - apply vchecked_always. unfold ex_wrappers. cbn [vchecked]. repeat cpp2. exact Logic.I.
  - eexists. split; [lazy; reflexivity|]. split; [reflexivity|]. intros v. do 6 (destruct v as [|v]; [reflexivity|]). reflexivity.
Qed.

(** *** IntrusivePtr *)
Ltac ptr :=
  split; [split; [cbn; intros v H; first [discriminate H|injection H as <-; reflexivity]
                 |cbn; intros w H; repeat (destruct H as [H|H]; [subst w; cbn; discriminate|]); destruct H]
         |lazy -[correct_ptr careful_ptr]].
Ltac ptr2 := split; [cbn; first [exact Logic.I|reflexivity]|lazy -[correct_ptr careful_ptr]].

(** Move assignment leaks; moving a pointer onto itself empties it and leaks its object. *)
Theorem C40_intrusive_move_assign_refuted :
  (exists l p x, ialways correct_ptr l /\ irun l iprog0 = Ok p /\ (forall v, i_vars p v = None) /\ alive (i_st p) x = true) /\
  (exists l p x, ialways correct_ptr l /\ irun l iprog0 = Ok p /\ (forall v, handle (i_vars p) v = None) /\ alive (i_st p) x = true /\
     l = [INew 0; IMoveAssign 0 0]).
Proof.
  split.
  - exists [INew 0; INew 1; IMoveAssign 0 1; IEnd 0; IEnd 1]. eexists _, 0%nat. split.
    + apply ichecked_always. cbn [ichecked]. repeat ptr. exact Logic.I.
    + split; [lazy; reflexivity|]. split; [|reflexivity]. intros v. do 2 (destruct v as [|v]; [reflexivity|]). reflexivity.
  - exists [INew 0; IMoveAssign 0 0]. eexists _, 0%nat. split.
    + apply ichecked_always. cbn [ichecked]. repeat ptr. exact Logic.I.
    + split; [lazy; reflexivity|]. split; [|split; reflexivity]. intros v. destruct v as [|v]; reflexivity.
Qed.

Definition ex_pointers : list iop := [INull 0; INew 1; ICopy 2 1; IAssign 0 2; IMove 3 1; IMoveAssign 1 0; IReset 2; INew 4; IAssign 3 4].
Example C40_intrusive_ex : ialways correct_ptr ex_pointers /\ ialways careful_ptr ex_pointers /\
  exists p, irun ex_pointers iprog0 = Ok p /\ alive (i_st p) 0 = true /\ alive (i_st p) 1 = true /\
    map (handle (i_vars p)) [0; 1; 2; 3; 4]%nat = [None; Some 0%nat; None; Some 1%nat; Some 1%nat].
Proof.
  split; [|split].
  - apply ichecked_always. unfold ex_pointers. cbn [ichecked]. repeat ptr. exact Logic.I.
  - apply ichecked_always. unfold ex_pointers. cbn [ichecked]. repeat ptr2. exact Logic.I.
  - eexists. split; [lazy; reflexivity|]. repeat split; reflexivity.
Qed.

(** Threads: a run in which the second thread frees the object. *)
Example C40_threads_ex : exists s, treach (alone 0) s /\ s_deletes s = 1%nat.
Proof.
  eexists. split.
  - eapply treach_step; [eapply treach_step; [eapply treach_step; [eapply treach_step; [eapply treach_step; [apply treach_refl|]|]|]|]|].
    + apply (T_inc _ 0); cbn; auto.
    + apply (T_give _ 0 1); cbn; auto.
    + apply (T_dec _ 0); cbn; auto.
    + apply (T_dec _ 1); cbn; auto.
    + apply (T_delete _ 1). reflexivity.
  - reflexivity.
Qed.

Print Assumptions C40_no_crash_partial.
Print Assumptions C40_exists_iff_referenced_partial.
Print Assumptions C40_use_count_partial.
Print Assumptions C40_no_leak_partial.
Print Assumptions C40_wrappers_partial.
Print Assumptions C40_intrusive_partial.
Print Assumptions C40_threads.
Print Assumptions C40_static_link_partial.
