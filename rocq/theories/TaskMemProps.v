(** C39: memory for task arguments.  C54: the implicit sync. *)
From Coq Require Import ZArith List Bool Lia.
From Verif Require Import Bits TaskMemModel TaskMemSpec TaskMemProofs.
Import ListNotations.
Open Scope Z_scope.

(** For every sequence of requests made of a task group that has been used and synced any number of
    times: the blocks have the sizes and alignments asked for, lie inside buffers of the group, and do
    not overlap. *)
Theorem C39_blocks_aligned_inside_and_disjoint_partial base0 news before reqs m bs m1 :
  Forall (Forall request_ok) before -> Forall request_ok reqs ->
  rounds (mem_init base0 news) before = Some m -> allocs m reqs [] = Some (bs, m1) ->
  Forall2 (fun r b => b_size b = fst r /\ b_addr b mod snd r = 0) reqs (rev bs) /\
  Forall (in_buffer m1) bs /\ (buffers_disjoint m1 -> ForallOrdPairs disjoint bs).
Proof. exact (round_ok base0 news before reqs m bs m1). Qed.

(** The assertion can only fail when the last of the sixteen buffers is in use. *)
Theorem C39_fails_only_when_all_buffers_used base0 news before m size al :
  Forall (Forall request_ok) before -> request_ok (size, al) ->
  rounds (mem_init base0 news) before = Some m ->
  forall reqs bs m1, Forall request_ok reqs -> allocs m reqs [] = Some (bs, m1) -> (S (m_cur m1) < 16)%nat ->
  alloc_memory m1 size al <> None.
Proof. exact (assertion_only_when_full base0 news before m size al). Qed.

(** The hypotheses are met: two rounds of requests, one of which needs new buffers. *)
Definition ex_news (n : nat) : Z := if Nat.eqb n 0 then 1000008 else 1100008.
Example C39_ex :
  exists m bs m1, rounds (mem_init 4096 ex_news) [[(100, 16); (9000, 64)]] = Some m /\
    allocs m [(24, 8); (100, 32); (5000, 16); (3, 1)] [] = Some (bs, m1) /\
    map (fun b => (b_buf b, b_addr b, b_size b)) (rev bs) = [(0%nat, 4096, 24); (0%nat, 4128, 100); (1%nat, 1100016, 5000); (1%nat, 1105016, 3)] /\
    Forall request_ok [(24, 8); (100, 32); (5000, 16); (3, 1)] /\ Forall (Forall request_ok) [[(100, 16); (9000, 64)]] /\ buffers_disjoint m1.
Proof.
  eexists _, _, _. split; [vm_compute; reflexivity|]. split; [vm_compute; reflexivity|]. split; [vm_compute; reflexivity|].
  assert (R : forall k size, 0 <= size <= 2 ^ 20 -> 0 <= k <= 20 -> request_ok (size, 2 ^ k)).
  { intros k size H1 H2. exists k. split; auto. unfold small. cbn [fst]. split; [lia|]. split; [lia|].
    assert (2 ^ k <= 2 ^ 20) by (apply Z.pow_le_mono_r; lia). change (2 ^ 30) with (1024 * 2 ^ 20). lia. }
  split; [repeat constructor; [apply (R 3)|apply (R 5)|apply (R 4)|apply (R 0)]; lia|].
  split; [repeat constructor; [apply (R 4)|apply (R 6)]; lia|].
  intros j k Hj Hk N. cbn [m_cur] in *. assert (J : (j = 0 \/ j = 1)%nat) by lia. assert (K : (k = 0 \/ k = 1)%nat) by lia.
  destruct J, K; subst; try congruence; vm_compute; intuition discriminate.
Qed.

(** Without the bound on the size: a request of 2^31 bytes is "satisfied" from the buffer of 256 bytes,
    because int newOffset wraps; the next block lies outside of all buffers. *)
Theorem C39_large_request_overruns_buffer_refuted base0 news : base0 mod 16 = 0 ->
  exists bs m1, allocs (mem_init base0 news) [(2 ^ 31, 16)] [] = Some (bs, m1) /\ ~ Forall (in_buffer m1) bs.
Proof.
  intros B. assert (A : align_up (base0 + 0) 16 = base0).
  { pose proof (align_up_spec (base0 + 0) 4 ltac:(lia)) as (A1 & A2 & A3). change (2 ^ 4) with 16 in *.
    pose proof (Z.div_mod base0 16 ltac:(lia)). pose proof (Z.div_mod (align_up (base0 + 0) 16) 16 ltac:(lia)). lia. }
  eexists _, _. split.
  - cbn [allocs]. rewrite alloc_memory_eq. rewrite alloc_fits; [reflexivity|]. cbn [mem_init m_base m_cur m_off m_size Nat.eqb]. rewrite A.
    replace (base0 - base0 + 2 ^ 31) with (2 ^ 31) by lia. reflexivity.
  - intros F. inversion F as [|? ? (_ & H1 & H2)]; subst. cbn in *. lia.
Qed.

(** Sixteen requests of 2^28 bytes before a sync: the assertion on the number of buffers fails. *)
Theorem C39_sixteen_large_requests_refuted : Forall request_ok (repeat (2 ^ 28, 16) 16) /\
  allocs (mem_init 4096 (fun n => 2 ^ 40 * (1 + Z.of_nat n))) (repeat (2 ^ 28, 16) 16) [] = None.
Proof.
  split; [|vm_compute; reflexivity]. apply Forall_forall. intros r H. apply repeat_spec in H. subst. exists 4. split; [reflexivity|].
  unfold small. cbn [fst]. lia.
Qed.

(** After any number of syncs: requests that together need at most 256 bytes are met from the array inside
    the task group; operator new[] is not called. *)
Theorem C39_small_requests base0 news before reqs m : Forall (Forall request_ok) before -> Forall request_ok reqs -> room reqs <= 256 ->
  rounds (mem_init base0 news) before = Some m ->
  exists bs m1, allocs m reqs [] = Some (bs, m1) /\ m_used m1 = m_used m /\
    Forall (fun b => base0 <= b_addr b /\ b_addr b + b_size b <= base0 + 256) bs.
Proof. exact (small_requests base0 news before reqs m). Qed.

Example C39_small_ex : exists m bs m1, rounds (mem_init 4096 ex_news) [[(100, 16); (9000, 64)]] = Some m /\ room [(24, 8); (100, 32)] <= 256 /\
  m_used m = 1%nat /\ allocs m [(24, 8); (100, 32)] [] = Some (bs, m1) /\ m_used m1 = 1%nat.
Proof. eexists _, _, _. split; [vm_compute; reflexivity|]. split; [vm_compute; discriminate|]. split; [reflexivity|]. split; vm_compute; reflexivity. Qed.

(** A task group that is used again after a sync asks for new buffers although it still has the old ones, and forgets
    those: after n uses, each with one request of 1000 bytes, operator new[] has been called n times and
    only the last of the n buffers is one the group (and so its destructor) knows of. *)
Theorem C39_buffers_leak_refuted base0 (news : nat -> Z) n :
  (forall j k, news j = news k -> j = k) -> (forall j, news j <> 0 /\ news j <> base0) ->
  exists m, rounds (mem_init base0 news) (repeat [(1000, 16)] n) = Some m /\ m_used m = n /\
    forall j k, (S j < n)%nat -> m_base m k <> news j.
Proof.
  intros INJ D. destruct (leak base0 news n) as (m & R & U & B0 & B1 & B2). exists m. split; [exact R|]. split; [exact U|].
  intros j [|[|k]] J E.
  - destruct (D j). congruence.
  - destruct B1 as [B1|B1]; rewrite B1 in E; [destruct (D j); congruence|]. apply INJ in E. lia.
  - rewrite B2 in E by lia. destruct (D j). congruence.
Qed.

(** ** C54: nothing is pending when the function returns *)
Theorem C54_return_syncs_partial check_mask body pending :
  loops_ok body = true -> exec (emit_function check_mask body) false pending OReturn -> pending = false.
Proof. exact (function_returns check_mask body pending). Qed.

(** The copy of the body for a mask that is not all on is emitted second: there every return syncs,
    whatever the body. *)
Theorem C54_return_syncs_mixed_mask body all_on some_on pending :
  emit_function true body = KIf all_on some_on -> exec some_on false pending OReturn -> pending = false.
Proof. exact (second_copy_returns body all_on some_on pending). Qed.

Example C54_ex : exists p, loops_ok (SSeq (SLoop (SSeq SLaunch (SIf SBreak SSync))) SReturn) = true /\
  exec (emit_function true (SSeq (SLoop (SSeq SLaunch (SIf SBreak SSync))) SReturn)) false p OReturn.
Proof.
  exists false. split; [reflexivity|]. cbn. apply x_then. apply x_seq_leave; [|discriminate].
  eapply x_seq; [|exact (x_return true _)].
  eapply x_again; [eapply x_seq; [apply x_launch|apply x_else; apply x_sync]|auto|].
  apply x_loop_break. eapply x_seq; [apply x_launch|apply x_then; apply x_break].
Qed.

(** The code emitted for a body (for the first or the second copy) leaves it in the same ways as the source: by a
    return, a break, a continue or at its end, with tasks pending or not, and in no others. *)
Theorem C54_outcomes launched body before after r :
  (r <> OReturn -> exec (fst (emit launched body)) before after r <-> behaves body before after r) /\
  ((exists h, exec (fst (emit launched body)) before h OReturn) <-> (exists h, behaves body before h OReturn)).
Proof. exact (same_behaviour launched body before after r). Qed.

(** for (...) { if (c) return; launch f(); }: the return comes before the launch in the text, so it does
    not sync, but the second time around the task of the first is still running. *)
Theorem C54_return_in_loop_before_launch_refuted :
  exec (emit_function false (SLoop (SSeq (SIf SReturn SSkip) SLaunch))) false true OReturn.
Proof.
  cbn. apply x_seq_leave; [|discriminate]. eapply x_again; [eapply x_seq; [apply x_else; apply x_skip|apply x_launch]|auto|].
  apply x_loop_return. apply x_seq_leave; [|discriminate]. apply x_then. exact (x_return false true).
Qed.

Print Assumptions C39_blocks_aligned_inside_and_disjoint_partial.
Print Assumptions C39_fails_only_when_all_buffers_used.
Print Assumptions C39_large_request_overruns_buffer_refuted.
Print Assumptions C39_sixteen_large_requests_refuted.
Print Assumptions C54_return_syncs_partial.
Print Assumptions C54_return_syncs_mixed_mask.
Print Assumptions C54_return_in_loop_before_launch_refuted.
Print Assumptions C39_small_requests.
Print Assumptions C39_buffers_leak_refuted.
Print Assumptions C54_outcomes.
