(** Property theorems: global atomics (C19) and local atomics (C20). *)
From Coq Require Import ZArith List Bool Permutation Lia SpecFloat.
From Verif Require Import Bits LanesModel LanesSpec LanesProofs ForeachModel ForeachProofs4 AtomicsModel AtomicsSpec
  AtomicsProofs AtomicsProofs2.
Import ListNotations.
Local Open Scope Z_scope.

(** ** C19: global atomics.  In every statement [w] is the world before, [w'] after; the actions of
    other threads in between are those that are in [wenv w] and no longer in [wenv w'].  Instances
    outside the mask issue nothing. *)

(* atomic_add_global, both implementations, 32 and 64 bits *)
Theorem C19_atomic_add :
  forall (n : Z) (W : nat) (mask : nat -> bool) (val : nat -> Z) (p : Z) (w : world Z),
  0 < n -> (0 < W)%nat ->
  (forall l, (l < W)%nat -> mask l = true -> int_n n (val l)) ->
  typed (int_n n) (wmem w) -> well_typed_actions (int_n n) (wenv w) ->
  forall w' ret, (atomic_add_generic n W mask val p w = (w', ret) \/ atomic_add_m4 n W mask val p w = (w', ret)) ->
  exists env, wenv w = env ++ wenv w' /\
    some_serial_order W mask (fun _ => p) (fun l old => wraps n (old + val l)) env (wmem w) (wmem w')
      (fun l => Some (ret l)).
Proof.
  intros n W mask val p w Hn HW TV TM TE w' ret [E|E].
  - pose proof (assoc_global_serial n W HW mask val p w TV TM TE _ _ (good_add n Hn)) as S.
    unfold atomic_add_generic in E. rewrite E in S. exact S.
  - pose proof (assoc_global_m4_serial n W HW mask val p w TV TM TE _ _ (good_add n Hn)) as S.
    unfold atomic_add_m4 in E. rewrite E in S. exact S.
Qed.
Print Assumptions C19_atomic_add.

Theorem C19_atomic_or :
  forall (n : Z) (W : nat) (mask : nat -> bool) (val : nat -> Z) (p : Z) (w : world Z),
  0 < n -> (0 < W)%nat ->
  (forall l, (l < W)%nat -> mask l = true -> int_n n (val l)) ->
  typed (int_n n) (wmem w) -> well_typed_actions (int_n n) (wenv w) ->
  forall w' ret, (atomic_or_generic W mask val p w = (w', ret) \/ atomic_or_m4 W mask val p w = (w', ret)) ->
  exists env, wenv w = env ++ wenv w' /\
    some_serial_order W mask (fun _ => p) (fun l old => Z.lor old (val l)) env (wmem w) (wmem w')
      (fun l => Some (ret l)).
Proof.
  intros n W mask val p w Hn HW TV TM TE w' ret [E|E].
  - pose proof (assoc_global_serial n W HW mask val p w TV TM TE _ _ (good_or n Hn)) as S.
    unfold atomic_or_generic in E. rewrite E in S. exact S.
  - pose proof (assoc_global_m4_serial n W HW mask val p w TV TM TE _ _ (good_or n Hn)) as S.
    unfold atomic_or_m4 in E. rewrite E in S. exact S.
Qed.
Print Assumptions C19_atomic_or.

Theorem C19_atomic_xor :
  forall (n : Z) (W : nat) (mask : nat -> bool) (val : nat -> Z) (p : Z) (w : world Z),
  0 < n -> (0 < W)%nat ->
  (forall l, (l < W)%nat -> mask l = true -> int_n n (val l)) ->
  typed (int_n n) (wmem w) -> well_typed_actions (int_n n) (wenv w) ->
  forall w' ret, (atomic_xor_generic W mask val p w = (w', ret) \/ atomic_xor_m4 W mask val p w = (w', ret)) ->
  exists env, wenv w = env ++ wenv w' /\
    some_serial_order W mask (fun _ => p) (fun l old => Z.lxor old (val l)) env (wmem w) (wmem w')
      (fun l => Some (ret l)).
Proof.
  intros n W mask val p w Hn HW TV TM TE w' ret [E|E].
  - pose proof (assoc_global_serial n W HW mask val p w TV TM TE _ _ (good_xor n Hn)) as S.
    unfold atomic_xor_generic in E. rewrite E in S. exact S.
  - pose proof (assoc_global_m4_serial n W HW mask val p w TV TM TE _ _ (good_xor n Hn)) as S.
    unfold atomic_xor_m4 in E. rewrite E in S. exact S.
Qed.
Print Assumptions C19_atomic_xor.

(* atomic_and_global on the targets built from util.m4 *)
Theorem C19_atomic_and_m4 :
  forall (n : Z) (W : nat) (mask : nat -> bool) (val : nat -> Z) (p : Z) (w : world Z),
  0 < n -> (0 < W)%nat ->
  (forall l, (l < W)%nat -> mask l = true -> int_n n (val l)) ->
  typed (int_n n) (wmem w) -> well_typed_actions (int_n n) (wenv w) ->
  forall w' ret, atomic_and_m4 W mask val p w = (w', ret) ->
  exists env, wenv w = env ++ wenv w' /\
    some_serial_order W mask (fun _ => p) (fun l old => Z.land old (val l)) env (wmem w) (wmem w')
      (fun l => Some (ret l)).
Proof.
  intros n W mask val p w Hn HW TV TM TE w' ret E.
  pose proof (assoc_global_m4_serial n W HW mask val p w TV TM TE _ _ (good_and n Hn)) as S.
  unfold atomic_and_m4 in E. rewrite E in S. exact S.
Qed.
Print Assumptions C19_atomic_and_m4.

Example C19_example :
  (* three of four instances add 1, 2, 4 to 10 while another thread has just added 100 *)
  let w := World (fun _ => 10) [fun m p => if p =? 5 then m p + 100 else m p] in
  let r := atomic_add_m4 32 4 (fun l => negb (Nat.eqb l 1)) (fun l => nth l [1; 7; 2; 4] 0) 5 w in
  wmem (fst r) 5 = 117 /\ map (snd r) [0; 2; 3]%nat = [110; 111; 113].
Proof. split; vm_compute; reflexivity. Qed.

Example C19_example_hypotheses :
  typed (int_n 32) (fun _ => 10) /\ well_typed_actions (int_n 32) (@nil ((Z -> Z) -> Z -> Z)) /\
  (forall l, (l < 4)%nat -> int_n 32 (nth l [1; 7; 2; 4] 0)).
Proof.
  split; [|split].
  - intro q. unfold int_n. lia.
  - constructor.
  - intros l H. unfold int_n. destruct l as [|[|[|[|l]]]]; cbn [nth]; lia.
Qed.

(* atomic_swap_global *)
Theorem C19_atomic_swap :
  forall (A : Type) (W : nat) (mask : nat -> bool) (value : nat -> A) (p : Z) (w : world A),
  (W <= 64)%nat -> running W mask <> [] ->
  exists w' ret, atomic_swap W mask value p w = Some (w', ret) /\
    exists env, wenv w = env ++ wenv w' /\
      some_serial_order W mask (fun _ => p) (fun l _ => value l) env (wmem w) (wmem w') ret.
Proof. intros A W mask value p w HW. exact (swap_serial W HW mask value p w). Qed.
Print Assumptions C19_atomic_swap.

Example C19_swap_example :
  exists w' ret, atomic_swap 4 (fun l => negb (Nat.eqb l 1)) (fun l => Z.of_nat l + 20) 5 (World (fun _ => 10) []) = Some (w', ret) /\
    wmem w' 5 = 20 /\ map ret [0; 2; 3]%nat = [Some 22; Some 23; Some 10].
Proof. do 2 eexists. split; [reflexivity|]. split; reflexivity. Qed.

(* with no running instance it stores through an uninitialised index *)
Theorem C19_atomic_swap_none_running_refuted :
  forall (A : Type) (W : nat) (mask : nat -> bool) (value : nat -> A) (p : Z) (w : world A),
  (W <= 64)%nat -> running W mask = [] -> atomic_swap W mask value p w = None.
Proof. intros A W mask value p w HW. exact (swap_none_running W HW mask value p w). Qed.
Print Assumptions C19_atomic_swap_none_running_refuted.

(* varying pointers: every operation, each instance its own address; also float/double add and
   subtract through a uniform pointer on generic targets *)
Theorem C19_varying_pointer :
  forall (A : Type) (W : nat) (mask : nat -> bool) (op : A -> A -> A) (ptr : nat -> Z) (value : nat -> A) (w : world A),
  (W <= 64)%nat -> running W mask <> [] ->
  exists N w' ret, (forall fuel, (N <= fuel)%nat -> atomic_loop_global W mask op ptr value fuel w = Some (w', ret)) /\
    exists env, wenv w = env ++ wenv w' /\
      some_serial_order W mask ptr (fun l old => op old (value l)) env (wmem w) (wmem w') ret.
Proof. intros A W mask op ptr value w HW. exact (loop_global W HW mask ptr (fun l old => op old (value l)) w). Qed.
Print Assumptions C19_varying_pointer.

Theorem C19_compare_exchange_varying_pointer :
  forall (A : Type) (eqb : A -> A -> bool) (W : nat) (mask : nat -> bool) (ptr : nat -> Z) (cmp new : nat -> A) (w : world A),
  (W <= 64)%nat -> running W mask <> [] ->
  exists N w' ret, (forall fuel, (N <= fuel)%nat -> atomic_cmpxchg_ptrs eqb W mask ptr cmp new fuel w = Some (w', ret)) /\
    exists env, wenv w = env ++ wenv w' /\
      some_serial_order W mask ptr (fun l old => if eqb old (cmp l) then new l else old) env (wmem w) (wmem w') ret.
Proof. intros A eqb W mask ptr cmp new w HW. exact (loop_global W HW mask ptr (fun l old => if eqb old (cmp l) then new l else old) w). Qed.
Print Assumptions C19_compare_exchange_varying_pointer.

Example C19_ptr_example : running 4 (fun l => Nat.eqb l 1 || Nat.eqb l 3) <> [].
Proof. discriminate. Qed.

(* atomic_compare_exchange_global and float/double add/subtract on the m4 targets *)
Theorem C19_compare_exchange_m4 :
  forall (A : Type) (eqb : A -> A -> bool) (W : nat) (mask : nat -> bool) (p : Z) (cmp new : nat -> A) (w : world A),
  (W <= 64)%nat ->
  forall w' ret, atomic_cmpxchg_m4 eqb W mask p cmp new w = (w', ret) ->
  exists env, wenv w = env ++ wenv w' /\
    some_serial_order W mask (fun _ => p) (fun l old => if eqb old (cmp l) then new l else old) env
      (wmem w) (wmem w') ret.
Proof.
  intros A eqb W mask p cmp new w HW w' ret E.
  pose proof (per_lane_atomics_serial W HW mask p (fun l old => if eqb old (cmp l) then new l else old) w) as S.
  change (per_lane_atomics _ _ _ _ _) with (atomic_cmpxchg_m4 eqb W mask p cmp new w) in S. rewrite E in S. exact S.
Qed.
Print Assumptions C19_compare_exchange_m4.

Theorem C19_float_op_m4 :
  forall (A : Type) (op : A -> A -> A) (W : nat) (mask : nat -> bool) (p : Z) (value : nat -> A) (w : world A),
  (W <= 64)%nat ->
  forall w' ret, atomic_fp_m4 op W mask p value w = (w', ret) ->
  exists env, wenv w = env ++ wenv w' /\
    some_serial_order W mask (fun _ => p) (fun l old => op old (value l)) env (wmem w) (wmem w') ret.
Proof.
  intros A op W mask p value w HW w' ret E.
  pose proof (per_lane_atomics_serial W HW mask p (fun l old => op old (value l)) w) as S.
  change (per_lane_atomics _ _ _ _ _) with (atomic_fp_m4 op W mask p value w) in S. rewrite E in S. exact S.
Qed.
Print Assumptions C19_float_op_m4.

(* atomic_{min,max}_global: the memory effect is that of issuing the operations one by one; every
   instance gets the value from before all of them *)
Theorem C19_atomic_min_memory_partial :
  forall (n : Z) (W : nat) (mask : nat -> bool) (val : nat -> Z) (p : Z) (w : world Z),
  0 < n -> (0 < W)%nat ->
  (forall l, (l < W)%nat -> mask l = true -> int_n n (val l)) ->
  typed (int_n n) (wmem w) -> well_typed_actions (int_n n) (wenv w) ->
  forall w' ret, atomic_minmax (reduce_min_s n) Z.min W mask val p w = (w', ret) ->
  exists env got, wenv w = env ++ wenv w' /\
    some_serial_order W mask (fun _ => p) (fun l old => Z.min old (val l)) env (wmem w) (wmem w') got /\
    (forall l, In l (running W mask) -> ret l = Some (act env (wmem w) p)).
Proof.
  intros n W mask val p w Hn HW TV TM TE w' ret E.
  pose proof (pow2_pos (n - 1)) as P. pose proof (pow2_pos n) as P'.
  pose proof (minmax_memory (int_n n) Z.min (2 ^ (n - 1) - 1) W mask val p w HW) as S.
  cbv zeta in S. change (atomic_minmax _ Z.min W mask val p w) with (atomic_minmax (reduce_min_s n) Z.min W mask val p w) in S.
  rewrite E in S. apply S; auto; unfold int_n, uint_n in *; intros; lia.
Qed.
Print Assumptions C19_atomic_min_memory_partial.

Theorem C19_atomic_max_memory_partial :
  forall (n : Z) (W : nat) (mask : nat -> bool) (val : nat -> Z) (p : Z) (w : world Z),
  0 < n -> (0 < W)%nat ->
  (forall l, (l < W)%nat -> mask l = true -> int_n n (val l)) ->
  typed (int_n n) (wmem w) -> well_typed_actions (int_n n) (wenv w) ->
  forall w' ret, atomic_minmax (reduce_max_s n) Z.max W mask val p w = (w', ret) ->
  exists env got, wenv w = env ++ wenv w' /\
    some_serial_order W mask (fun _ => p) (fun l old => Z.max old (val l)) env (wmem w) (wmem w') got /\
    (forall l, In l (running W mask) -> ret l = Some (act env (wmem w) p)).
Proof.
  intros n W mask val p w Hn HW TV TM TE w' ret E.
  pose proof (pow2_pos (n - 1)) as P. pose proof (pow2_pos n) as P'.
  pose proof (minmax_memory (int_n n) Z.max (- 2 ^ (n - 1)) W mask val p w HW) as S.
  cbv zeta in S. change (atomic_minmax _ Z.max W mask val p w) with (atomic_minmax (reduce_max_s n) Z.max W mask val p w) in S.
  rewrite E in S. apply S; auto; unfold int_n, uint_n in *; intros; lia.
Qed.
Print Assumptions C19_atomic_max_memory_partial.

Theorem C19_atomic_min_unsigned_memory_partial :
  forall (n : Z) (W : nat) (mask : nat -> bool) (val : nat -> Z) (p : Z) (w : world Z),
  0 < n -> (0 < W)%nat ->
  (forall l, (l < W)%nat -> mask l = true -> uint_n n (val l)) ->
  typed (uint_n n) (wmem w) -> well_typed_actions (uint_n n) (wenv w) ->
  forall w' ret, atomic_minmax (reduce_min_u n) Z.min W mask val p w = (w', ret) ->
  exists env got, wenv w = env ++ wenv w' /\
    some_serial_order W mask (fun _ => p) (fun l old => Z.min old (val l)) env (wmem w) (wmem w') got /\
    (forall l, In l (running W mask) -> ret l = Some (act env (wmem w) p)).
Proof.
  intros n W mask val p w Hn HW TV TM TE w' ret E.
  pose proof (pow2_pos (n - 1)) as P. pose proof (pow2_pos n) as P'.
  pose proof (minmax_memory (uint_n n) Z.min (2 ^ n - 1) W mask val p w HW) as S.
  cbv zeta in S. change (atomic_minmax _ Z.min W mask val p w) with (atomic_minmax (reduce_min_u n) Z.min W mask val p w) in S.
  rewrite E in S. apply S; auto; unfold int_n, uint_n in *; intros; lia.
Qed.
Print Assumptions C19_atomic_min_unsigned_memory_partial.

Theorem C19_atomic_max_unsigned_memory_partial :
  forall (n : Z) (W : nat) (mask : nat -> bool) (val : nat -> Z) (p : Z) (w : world Z),
  0 < n -> (0 < W)%nat ->
  (forall l, (l < W)%nat -> mask l = true -> uint_n n (val l)) ->
  typed (uint_n n) (wmem w) -> well_typed_actions (uint_n n) (wenv w) ->
  forall w' ret, atomic_minmax (reduce_max_u n) Z.max W mask val p w = (w', ret) ->
  exists env got, wenv w = env ++ wenv w' /\
    some_serial_order W mask (fun _ => p) (fun l old => Z.max old (val l)) env (wmem w) (wmem w') got /\
    (forall l, In l (running W mask) -> ret l = Some (act env (wmem w) p)).
Proof.
  intros n W mask val p w Hn HW TV TM TE w' ret E.
  pose proof (pow2_pos (n - 1)) as P. pose proof (pow2_pos n) as P'.
  pose proof (minmax_memory (uint_n n) Z.max (0) W mask val p w HW) as S.
  cbv zeta in S. change (atomic_minmax _ Z.max W mask val p w) with (atomic_minmax (reduce_max_u n) Z.max W mask val p w) in S.
  rewrite E in S. apply S; auto; unfold int_n, uint_n in *; intros; lia.
Qed.
Print Assumptions C19_atomic_max_unsigned_memory_partial.

(** Where the claim fails.  One thread only. *)

Lemma serial_one {A} W mask (ptr : nat -> Z) (op : nat -> A -> A) m m' ret l : running W mask = [l] ->
  some_serial_order W mask ptr op [] m m' ret ->
  (forall q, m' q = write m (ptr l) (op l (m (ptr l))) q) /\ ret l = Some (m (ptr l)).
Proof.
  intros R (sched & m1 & rets & last & P & C & I & M & RT). rewrite R in P.
  apply Permutation_sym, Permutation_length_1_inv in P.
  destruct sched as [|[o x] [|? ?]]; try discriminate. cbn in P. injection P as ->.
  apply app_eq_nil in C as [C ->]. cbn in C. apply app_eq_nil in C as [-> _].
  inversion I; subst. match goal with H : issued _ _ [] _ _ _ |- _ => inversion H; subst end.
  split; [exact M|]. apply RT. now left.
Qed.

(* atomic_subtract_global: instance 1 alone subtracts 3, memory goes from 10 to 13 *)
Theorem C19_atomic_subtract_refuted :
  exists W mask val p w, running W mask = [1%nat] /\ wenv w = [] /\
    (forall w' ret, (atomic_sub32_generic W mask val p w = (w', ret) \/ atomic_sub64_generic W mask val p w = (w', ret) \/
       atomic_sub_m4 32 W mask val p w = (w', ret) \/ atomic_sub_m4 64 W mask val p w = (w', ret)) ->
     ~ some_serial_order W mask (fun _ => p) (fun l old => old - val l) [] (wmem w) (wmem w') (fun l => Some (ret l))).
Proof.
  exists 2%nat, (fun l => Nat.eqb l 1), (fun _ => 3), 5, (World (fun _ => 10) []).
  split; [reflexivity|]. split; [reflexivity|].
  intros w' ret H S. apply (serial_one 2 _ _ _ _ _ _ 1%nat) in S as [S _]; [|reflexivity].
  specialize (S 5). cbn in S.
  destruct H as [H|[H|[H|H]]]; apply (f_equal (fun r => wmem (fst r) 5)) in H; cbn [fst] in H; rewrite S in H; vm_compute in H; discriminate H.
Qed.
Print Assumptions C19_atomic_subtract_refuted.

(* on generic targets even instance 0 alone gets the negated old value back *)
Theorem C19_atomic_subtract_result_refuted :
  exists mask val p w, running 2 mask = [0%nat] /\ wenv w = [] /\
    forall w' ret, atomic_sub32_generic 2 mask val p w = (w', ret) -> ret 0%nat <> wmem w p.
Proof.
  exists (fun l => Nat.eqb l 0), (fun _ => 3), 5, (World (fun _ => 10) []).
  split; [reflexivity|]. split; [reflexivity|].
  intros w' ret H. assert (E : -10 = ret 0%nat) by (apply (f_equal (fun r => snd r 0%nat)) in H; exact H). rewrite <- E. discriminate.
Qed.
Print Assumptions C19_atomic_subtract_result_refuted.

(* atomic_and_global on generic targets subtracts *)
Theorem C19_atomic_and_generic_refuted :
  exists W mask val p w, running W mask = [0%nat] /\ wenv w = [] /\
    forall n w' ret, n = 32 \/ n = 64 -> atomic_and_generic n W mask val p w = (w', ret) ->
     ~ some_serial_order W mask (fun _ => p) (fun l old => Z.land old (val l)) [] (wmem w) (wmem w') (fun l => Some (ret l)).
Proof.
  exists 4%nat, (fun l => Nat.eqb l 0), (fun _ => 3), 5, (World (fun _ => 7) []).
  split; [reflexivity|]. split; [reflexivity|].
  intros n w' ret Hn H S. apply (serial_one 4 _ _ _ _ _ _ 0%nat) in S as [S _]; [|reflexivity].
  specialize (S 5). cbn in S.
  destruct Hn as [-> | ->]; apply (f_equal (fun r => wmem (fst r) 5)) in H; cbn [fst] in H; rewrite S in H; vm_compute in H; discriminate H.
Qed.
Print Assumptions C19_atomic_and_generic_refuted.

(* atomic_compare_exchange_global on generic targets: an inactive instance exchanges too *)
Theorem C19_compare_exchange_generic_refuted :
  exists W mask cmp new p w, running W mask = [0%nat] /\ wenv w = [] /\
    exists fuel w' ret, atomic_cmpxchg_generic Z.eqb W mask p cmp new fuel w = Some (w', ret) /\
     ~ some_serial_order W mask (fun _ => p) (fun l old => if old =? cmp l then new l else old) []
         (wmem w) (wmem w') ret.
Proof.
  exists 2%nat, (fun l => Nat.eqb l 0), (fun l => if Nat.eqb l 0 then 5 else 0), (fun l => 9), 5, (World (fun _ => 0) []).
  split; [reflexivity|]. split; [reflexivity|]. exists 2%nat. do 2 eexists. split; [reflexivity|].
  intros S. apply (serial_one 2 _ _ _ _ _ _ 0%nat) in S as [S _]; [|reflexivity].
  specialize (S 5). vm_compute in S. discriminate.
Qed.
Print Assumptions C19_compare_exchange_generic_refuted.

(* atomic_min_global: two instances cannot both find the original value *)
Theorem C19_atomic_min_results_refuted :
  exists W mask val p w, wenv w = [] /\
    forall w' ret, atomic_minmax (reduce_min_s 32) Z.min W mask val p w = (w', ret) ->
     ~ some_serial_order W mask (fun _ => p) (fun l old => Z.min old (val l)) [] (wmem w) (wmem w') ret.
Proof.
  exists 2%nat, (fun _ => true), (fun l => if Nat.eqb l 0 then 5 else 3), 1, (World (fun _ => 10) []).
  split; [reflexivity|]. intros w' ret H (sched & m1 & rets & last & P & C & I & M & RT).
  assert (R : Some 10 = ret 0%nat /\ Some 10 = ret 1%nat).
  { split; [apply (f_equal (fun r => snd r 0%nat)) in H|apply (f_equal (fun r => snd r 1%nat)) in H]; exact H. }
  destruct sched as [|[o1 x1] [|[o2 x2] [|? ?]]];
    try (apply Permutation_length in P; discriminate P).
  apply app_eq_nil in C as [C ->]. cbn in C. apply app_eq_nil in C as [-> C]. apply app_eq_nil in C as [-> _].
  inversion I as [|? ? ? ? ? ? m0 I2]; subst. subst m0. cbn in I2.
  inversion I2 as [|? ? ? ? ? ? m0 I3]; subst. subst m0. cbn in *.
  assert (X1 : x1 = 0%nat \/ x1 = 1%nat).
  { assert (In x1 [0%nat; 1%nat]) by (eapply Permutation_in; [exact P|now left]). cbn in H0. intuition. }
  assert (X2 : x2 = 0%nat \/ x2 = 1%nat).
  { assert (In x2 [0%nat; 1%nat]) by (eapply Permutation_in; [exact P|right; now left]). cbn in H0. intuition. }
  pose proof (RT x2 _ (or_intror (or_introl eq_refl))) as Q.
  destruct R as [R0 R1]. destruct X1 as [-> | ->]; destruct X2 as [-> | ->]; vm_compute in Q; rewrite <- ?R0, <- ?R1 in Q; discriminate.
Qed.
Print Assumptions C19_atomic_min_results_refuted.

(** ** C20: local atomics *)

Theorem C20_atomic_local :
  forall (A : Type) (opfunc : A -> A -> A) (W : nat) (mask : nat -> bool) (ptr : nat -> Z) (value : nat -> A) (m : Z -> A),
  (W <= 64)%nat -> running W mask <> [] ->
  exists N m' ret, (forall fuel, (N <= fuel)%nat -> atomic_local W mask opfunc ptr value fuel m = Some (m', ret)) /\
    in_instance_order W mask ptr (fun l old => opfunc old (value l)) m m' ret.
Proof. intros A opfunc W mask ptr value m HW. exact (loop_local W HW mask ptr (fun l old => opfunc old (value l)) m). Qed.
Print Assumptions C20_atomic_local.

Theorem C20_compare_exchange_local :
  forall (A : Type) (eqb : A -> A -> bool) (W : nat) (mask : nat -> bool) (ptr : nat -> Z) (cmp new : nat -> A) (m : Z -> A),
  (W <= 64)%nat -> running W mask <> [] ->
  exists N m' ret, (forall fuel, (N <= fuel)%nat -> atomic_cmpxchg_local eqb W mask ptr cmp new fuel m = Some (m', ret)) /\
    in_instance_order W mask ptr (fun l old => if eqb old (cmp l) then new l else old) m m' ret.
Proof. intros A eqb W mask ptr cmp new m HW. exact (loop_local W HW mask ptr (fun l old => if eqb old (cmp l) then new l else old) m). Qed.
Print Assumptions C20_compare_exchange_local.

(* the operations are the named ones *)
Theorem C20_integer_operations :
  forall n a b, 0 < n -> 
  is_wrap_s n (a + b) (local_int n Iadd a b) /\ is_wrap_s n (a - b) (local_int n Isub a b) /\
  local_int n Iand a b = Z.land a b /\ local_int n Ior a b = Z.lor a b /\ local_int n Ixor a b = Z.lxor a b /\
  local_int n Imin a b = Z.min a b /\ local_int n Imax a b = Z.max a b /\ local_int n Iswap a b = b /\
  is_wrap_u n (a + b) (local_uint n Iadd a b) /\ is_wrap_u n (a - b) (local_uint n Isub a b) /\
  local_uint n Iand a b = Z.land a b /\ local_uint n Ior a b = Z.lor a b /\ local_uint n Ixor a b = Z.lxor a b /\
  local_uint n Imin a b = Z.min a b /\ local_uint n Imax a b = Z.max a b /\ local_uint n Iswap a b = b.
Proof.
  intros n a b Hn. unfold local_int, local_uint.
  repeat match goal with |- _ /\ _ => split end; try reflexivity; try (now apply is_wrap_s_intro); try (now apply is_wrap_u_intro);
    destruct (Z.ltb_spec a b); lia.
Qed.
Print Assumptions C20_integer_operations.

Theorem C20_float_operations :
  forall a b, local_float Fadd a b = SFadd 24 128 a b /\ local_float Fsub a b = SFsub 24 128 a b /\
    local_float Fswap a b = b /\
    local_double Fadd a b = SFadd 53 1024 a b /\ local_double Fsub a b = SFsub 53 1024 a b.
Proof. intros a b. repeat split. Qed.
Print Assumptions C20_float_operations.

(* atomic_swap_local on doubles stores old - new: swapping 1.0 into a location holding 3.0 leaves 2.0 *)
Theorem C20_swap_local_double_refuted :
  let one := S754_finite false 4503599627370496 (-52) in
  let two := S754_finite false 4503599627370496 (-51) in
  let three := S754_finite false 6755399441055744 (-51) in
  exists fuel m' ret,
    atomic_local 1 (fun _ => true) (local_double Fswap) (fun _ => 0) (fun _ => one) fuel (fun _ => three) = Some (m', ret) /\
    m' 0 = two /\ m' 0 <> one.
Proof.
  exists 1%nat. do 2 eexists. split; [reflexivity|]. split; [vm_compute; reflexivity|vm_compute; discriminate].
Qed.
Print Assumptions C20_swap_local_double_refuted.

Example C20_example :
  exists N m' ret, atomic_local 4 (fun l => negb (Nat.eqb l 2)) (local_int 32 Iadd) (fun l => if Nat.eqb l 3 then 8 else 4)
      (fun l => Z.of_nat l + 1) N (fun _ => 10) = Some (m', ret) /\
    m' 4 = 13 /\ m' 8 = 14 /\ map ret [0; 1; 3]%nat = [Some 10; Some 11; Some 10].
Proof. exists 3%nat. do 2 eexists. split; [reflexivity|]. repeat split. Qed.
