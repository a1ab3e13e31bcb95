(** Launch and sync with the pthreads task system.  A history lists events newest first; [s_bad s = false]
    says that no compare-and-swap in AllocTaskGroup has met a different group in its slot. *)
From Coq Require Import ZArith List Bool Arith Lia.
From Verif Require Import TasksModel TasksSpec TasksWitness TasksProofs10 TasksProofs TasksProofs6 TasksProofs11 TasksProofs12.
Import ListNotations.
Open Scope Z_scope.

(** ** C38: only one thread launches: every schedule *)
Theorem C38_sync_waits_for_all_tasks_once_each w h t0 sched s later a earlier :
  schedule_ok sched -> launches_on t0 sched -> run sched (init w h) = Ok s ->
  s_log s = later ++ EvSync a :: earlier -> all_done a earlier.
Proof. intros SO LO R. apply (sync_waits w h sched); auto. apply (one_not_bad w h t0 sched); auto. Qed.

Theorem C38_return_waits_for_all_tasks_once_each w h t0 sched s a :
  schedule_ok sched -> launches_on t0 sched -> run sched (init w h) = Ok s -> not_running a s -> all_done a (s_log s).
Proof. intros SO LO R. apply (return_waits w h sched); auto. apply (one_not_bad w h t0 sched); auto. Qed.

Theorem C38_tasks_are_called_as_launched w h t0 sched s later x t ti tc earlier :
  schedule_ok sched -> launches_on t0 sched -> run sched (init w h) = Ok s ->
  s_log s = later ++ EvStart x t ti tc :: earlier ->
  In (EvLaunch (i_data x) (i_func x) (i_c0 x) (i_c1 x) (i_c2 x)) earlier /\
  0 <= task_index0 x < i_c0 x /\ 0 <= task_index1 x < i_c1 x /\ 0 <= task_index2 x < i_c2 x /\
  i_index x = task_index0 x + i_c0 x * (task_index1 x + i_c1 x * task_index2 x) /\
  times (call_of (i_data x) (task_index0 x) (task_index1 x) (task_index2 x)) earlier = 0%nat.
Proof. intros SO LO R. apply (start_as_launched w h sched); auto. apply (one_not_bad w h t0 sched); auto. Qed.

Theorem C38_never_undefined w h t0 sched : schedule_ok sched -> launches_on t0 sched -> run sched (init w h) <> Undef.
Proof.
  intros SO LO. apply never_undefined; auto. intros p1 p2 s1 -> R. apply (one_not_bad w h t0 p1); auto.
  - intros t l H. apply (SO t). apply in_or_app. auto.
  - intros t l H. apply (LO t l). apply in_or_app. auto.
Qed.

(** There is no deadlock: whatever has happened, if functions start no more launches they can all
    return, and then all tasks have been executed. *)
Theorem C38_all_functions_can_return w h t0 sched s : schedule_ok sched -> launches_on t0 sched -> run sched (init w h) = Ok s ->
  exists more, (forall t ch, In (t, ch) more -> ch = CReturn) /\
    (run (sched ++ more) (init w h) = Exit \/
     exists s', run (sched ++ more) (init w h) = Ok s' /\ idle s' /\ forall a, all_done a (s_log s')).
Proof. intros SO LO R. apply (can_complete w h sched s); auto. apply (one_not_bad w h t0 sched); auto. apply (one_no_stale w h t0 sched); auto. Qed.

(** The process exits only if a function launches more tasks than a task group has room for. *)
Theorem C38_exit_only_at_limit w h t0 sched : schedule_ok sched -> launches_on t0 sched -> run sched (init w h) = Exit ->
  exists p1 t ch p2 s a l, sched = p1 ++ (t, ch) :: p2 /\ run p1 (init w h) = Ok s /\ launching s t a l /\
    128 * 2 ^ 14 < pending a (s_log s) + l_c0 l * l_c1 l * l_c2 l.
Proof.
  intros SO LO E. apply exit_only; auto. intros p1 p2 s1 -> R. apply (one_not_bad w h t0 p1); auto.
  - intros t l H. apply (SO t). apply in_or_app. auto.
  - intros t l H. apply (LO t l). apply in_or_app. auto.
Qed.
Theorem C38_limit w h t0 sched s t a l ch : schedule_ok (sched ++ [(t, ch)]) -> launches_on t0 sched -> run sched (init w h) = Ok s -> launching s t a l ->
  (run (sched ++ [(t, ch)]) (init w h) = Exit <-> 128 * 2 ^ 14 < pending a (s_log s) + l_c0 l * l_c1 l * l_c2 l).
Proof.
  intros SO LO R L. assert (SO1 : schedule_ok sched) by (intros u x Y; apply (SO u); apply in_or_app; auto).
  rewrite (run_snoc _ _ _ _ R). apply (exit_limit w h sched); auto.
  - apply (one_not_bad w h t0 sched); auto.
  - assert (SO2 : schedule_ok [(t, ch)]) by (intros u x Y; apply (SO u); apply in_or_app; auto).
    pose proof (sched_ok _ SO2) as F. inversion F; auto.
Qed.
Example C38_limit_ex : exists s l, schedule_ok (sched_full ++ [(2%nat, CCall)]) /\ launches_on 2 sched_full /\
  run sched_full (init 2 1) = Ok s /\ launching s 2 0 l /\ pending 0 (s_log s) + l_c0 l * l_c1 l * l_c2 l = 2 ^ 22 /\ run (sched_full ++ [(2%nat, CCall)]) (init 2 1) = Exit.
Proof.
  destruct (run sched_full (init 2 1)) as [s| |] eqn:E; [|vm_compute in E; discriminate|vm_compute in E; discriminate].
  assert (X : exists l rest b, nth_error (s_thr s) 2 = Some (FAct b :: rest) /\ a_id b = 0%nat /\ a_pc b = PFill l /\ s_log s = [] /\ l_c0 l * l_c1 l * l_c2 l = 2 ^ 22).
  { vm_compute in E. injection E as <-. vm_compute. do 3 eexists. repeat split. }
  destruct X as (l & rest & b & HN & ID & PC & LG & CT). exists s, l. split; [|split; [|split; [|split; [|split]]]]; auto.
  - apply check_ok. vm_compute. reflexivity.
  - intros t k H. apply (check_in (fun t _ => Nat.eqb t 2)) in H; [|vm_compute; reflexivity]. now apply Nat.eqb_eq.
  - exists b, rest. auto.
  - rewrite LG, CT. reflexivity.
Qed.

(** ** C38: any number of launching threads, as long as the compare-and-swap does not go wrong *)
Theorem C38_sync_waits_any_threads_partial w h sched s later a earlier :
  schedule_ok sched -> run sched (init w h) = Ok s -> s_bad s = false ->
  s_log s = later ++ EvSync a :: earlier -> all_done a earlier.
Proof. exact (sync_waits w h sched s later a earlier). Qed.

Theorem C38_return_waits_any_threads_partial w h sched s a :
  schedule_ok sched -> run sched (init w h) = Ok s -> s_bad s = false -> not_running a s -> all_done a (s_log s).
Proof. exact (return_waits w h sched s a). Qed.

Theorem C38_tasks_are_called_as_launched_any_threads_partial w h sched s later x t ti tc earlier :
  schedule_ok sched -> run sched (init w h) = Ok s -> s_bad s = false ->
  s_log s = later ++ EvStart x t ti tc :: earlier ->
  In (EvLaunch (i_data x) (i_func x) (i_c0 x) (i_c1 x) (i_c2 x)) earlier /\
  0 <= task_index0 x < i_c0 x /\ 0 <= task_index1 x < i_c1 x /\ 0 <= task_index2 x < i_c2 x /\
  i_index x = task_index0 x + i_c0 x * (task_index1 x + i_c1 x * task_index2 x) /\
  times (call_of (i_data x) (task_index0 x) (task_index1 x) (task_index2 x)) earlier = 0%nat.
Proof. exact (start_as_launched w h sched s later x t ti tc earlier). Qed.

Theorem C38_launches_have_their_own_arguments_partial w h sched s later d f c0 c1 c2 earlier :
  schedule_ok sched -> run sched (init w h) = Ok s -> s_bad s = false -> s_log s = later ++ EvLaunch d f c0 c1 c2 :: earlier ->
  forall g k0 k1 k2, ~ In (EvLaunch d g k0 k1 k2) earlier.
Proof. exact (launches_distinct w h sched s later d f c0 c1 c2 earlier). Qed.

Theorem C38_never_undefined_any_threads_partial w h sched : schedule_ok sched ->
  (forall p1 p2 s1, sched = p1 ++ p2 -> run p1 (init w h) = Ok s1 -> s_bad s1 = false) -> run sched (init w h) <> Undef.
Proof. exact (never_undefined w h sched). Qed.

Theorem C38_all_functions_can_return_any_threads_partial w h sched s :
  schedule_ok sched -> run sched (init w h) = Ok s -> s_bad s = false -> no_stale_read s ->
  exists more, (forall t ch, In (t, ch) more -> ch = CReturn) /\
    (run (sched ++ more) (init w h) = Exit \/
     exists s', run (sched ++ more) (init w h) = Ok s' /\ idle s' /\ forall a, all_done a (s_log s')).
Proof. exact (can_complete w h sched s). Qed.

(** A run that meets the hypotheses: six tasks, four executed by the host in sync. *)
Lemma six_ok : schedule_ok sched_six /\ launches_on 2 sched_six.
Proof.
  split; [apply check_ok|apply check_on]; vm_compute; reflexivity.
Qed.
Example C38_ex : exists s later earlier, run sched_six (init 2 1) = Ok s /\ s_bad s = false /\ s_log s = later ++ EvSync 0 :: earlier /\
  In (EvLaunch (0, 0)%nat 7 2 3 1) earlier /\ length earlier = 13%nat.
Proof.
  destruct run_six as (s & R & B & L). exists s, [], (tl log_six). split; [exact R|]. split; [exact B|]. split; [exact L|].
  split; [|reflexivity]. repeat ((left; reflexivity) || right).
Qed.

(** Finding: a function may get a group that another one uses, because AllocTaskGroup takes any
    group the compare-and-swap returns.  Then sync returns while a task is still running. *)
Theorem C38_sync_returns_early_after_failed_cas_refuted : exists sched s earlier,
  schedule_ok sched /\ run sched (init 1 3) = Ok s /\ s_log s = EvSync 1 :: earlier /\ ~ all_done 1 earlier.
Proof.
  destruct run_race as (s & R & L). exists sched_race, s, (tl log_race). split; [|split; [exact R|split; [exact L|]]].
  - apply check_ok. vm_compute. reflexivity.
  - intros H. destruct (H 1%nat 7%nat 1 1 1 ltac:(unfold log_race; cbn [tl In]; do 4 right; left; reflexivity) 0 0 0) as (_ & X); try lia. vm_compute in X. discriminate.
Qed.

(** Finding: launch[0] leaves an empty group in activeTaskGroups; the next sync fails its assertion. *)
Theorem C38_launch_of_no_tasks_refuted : exists sched, run sched (init 2 1) = Undef /\
  forall t l, In (t, CLaunch l) sched -> l = {| l_func := 7; l_c0 := 0; l_c1 := 1; l_c2 := 1 |}.
Proof.
  exists sched_zero. split; [vm_compute; reflexivity|].
  intros t l H. apply (check_in (fun _ l => Nat.eqb (l_func l) 7 && (l_c0 l =? 0) && (l_c1 l =? 1) && (l_c2 l =? 1))) in H;
    [|vm_compute; reflexivity]. rewrite !andb_true_iff, !Z.eqb_eq, Nat.eqb_eq in H. destruct l as [f k0 k1 k2]. cbn in H.
  destruct H as (((-> & ->) & ->) & ->). reflexivity.
Qed.

(** ** C55 *)
Theorem C55_thread_index_in_range_partial w h sched s x t ti tc :
  run sched (init w h) = Ok s -> In (EvStart x t ti tc) (s_log s) -> 0 <= ti < tc.
Proof. intros R H. exact (proj2 (idx_run sched _ _ (idx_init w h) R) x t ti tc H). Qed.

(** Finding: tasks that run at the same time in different threads get the same threadIndex, because
    a thread that waits in sync calls tasks with threadIndex 0. *)
Theorem C55_thread_index_not_unique_refuted : exists sched s x y t u tc uc,
  schedule_ok sched /\ run sched (init 1 1) = Ok s /\ t <> u /\
  In (EvStart x t 0 tc) (s_log s) /\ In (EvStart y u 0 uc) (s_log s) /\ forall d i, ~ In (EvEnd d i) (s_log s).
Proof.
  destruct run_index as (s & R & L). do 8 eexists. split; [|split; [exact R|]].
  - apply check_ok. vm_compute. reflexivity.
  - rewrite L. split; [|split; [left; reflexivity|split; [right; left; reflexivity|]]].
    + discriminate.
    + intros d i H. repeat (destruct H as [H|H]; [discriminate|]). exact H.
Qed.

Print Assumptions C38_sync_waits_for_all_tasks_once_each.
Print Assumptions C38_return_waits_for_all_tasks_once_each.
Print Assumptions C38_tasks_are_called_as_launched.
Print Assumptions C38_never_undefined.
Print Assumptions C38_all_functions_can_return.
Print Assumptions C38_exit_only_at_limit.
Print Assumptions C38_limit.
Print Assumptions C38_sync_waits_any_threads_partial.
Print Assumptions C38_return_waits_any_threads_partial.
Print Assumptions C38_tasks_are_called_as_launched_any_threads_partial.
Print Assumptions C38_launches_have_their_own_arguments_partial.
Print Assumptions C38_never_undefined_any_threads_partial.
Print Assumptions C38_all_functions_can_return_any_threads_partial.
Print Assumptions C38_sync_returns_early_after_failed_cas_refuted.
Print Assumptions C38_launch_of_no_tasks_refuted.
Print Assumptions C55_thread_index_in_range_partial.
Print Assumptions C55_thread_index_not_unique_refuted.
