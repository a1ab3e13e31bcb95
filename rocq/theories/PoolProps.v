(** C67: the memory pool of the GPU runtime. *)
From Coq Require Import List Bool Arith Lia.
Import ListNotations.
From Verif Require Import PoolModel PoolSpec PoolProofs PoolProofs2 PoolProofs3 PoolProofs4 PoolProofs5.

(** Two shared views that exist never have a byte in common: neither with chunks of the pool nor with direct allocations. *)
Theorem C67_disjoint : forall d lo hi w os w' rs i n p j m q, driver_ok d -> start lo hi w -> proper [] os -> run d w os = (w', rs) ->
  In (i, (n, Some p)) (held [] os rs) -> In (j, (m, Some q)) (held [] os rs) -> i <> j -> apart (p, n) (q, m).
Proof.
  intros d lo hi w os w' rs i n p j m q D S0 P E H1 H2 NE. destruct (history_ok d lo hi w os w' rs D S0 P E) as (OK & _ & AG).
  apply AG in H1 as (v & H1 & R1 & V1). apply AG in H2 as (u & H2 & R2 & V2). pose proof (views_apart _ _ _ _ _ _ _ _ _ OK H1 H2 NE V1 V2) as A.
  destruct OK as (_ & _ & _ & _ & _ & W6 & _). destruct (W6 _ _ H1) as (L1 & _). destruct (W6 _ _ H2) as (L2 & _). unfold apart in *. cbn in *. lia.
Qed.
(** The bytes asked for are inside one live allocation of the driver. *)
Theorem C67_inside : forall d lo hi w os w' rs i n p, driver_ok d -> start lo hi w -> proper [] os -> run d w os = (w', rs) ->
  In (i, (n, Some p)) (held [] os rs) -> exists base size, In (base, size) (w_hunks w') /\ base <= p /\ p + n <= base + size.
Proof.
  intros d lo hi w os w' rs i n p D S0 P E H. destruct (history_ok d lo hi w os w' rs D S0 P E) as (OK & _ & AG). apply AG in H as (v & H & R & V).
  destruct (view_place _ _ _ _ _ _ OK H V) as ((base & size) & IH & L1 & L2). exists base, size. split; auto. destruct OK as (_ & _ & _ & _ & _ & W6 & _). destruct (W6 _ _ H) as (L & _). cbn in *. lia.
Qed.
(** Live allocations of the driver never overlap. *)
Theorem C67_allocations_disjoint : forall d lo hi w os w' rs, driver_ok d -> start lo hi w -> proper [] os -> run d w os = (w', rs) -> ForallOrdPairs apart (w_hunks w').
Proof. intros d lo hi w os w' rs D S0 P E. destruct (history_ok d lo hi w os w' rs D S0 P E) as ((_ & A & _) & _). exact A. Qed.
(** No assertion of the pool fails and nothing undefined happens. *)
Theorem C67_no_crash : forall d lo hi w os w' rs, driver_ok d -> start lo hi w -> proper [] os -> run d w os = (w', rs) -> ~ In Crash rs.
Proof. intros d lo hi w os w' rs D S0 P E. apply (history_ok d lo hi w os w' rs D S0 P E). Qed.
(** A view keeps its pointer until it is released, whatever happens to other views. *)
Theorem C67_stable : forall d lo hi w os os2 i n p w1 rs w2 rs2, driver_ok d -> start lo hi w -> proper [] (os ++ os2 ++ [Access i]) -> run d w os = (w1, rs) ->
  In (i, (n, Some p)) (held [] os rs) -> ~ In (Delete i) os2 -> run d w (os ++ os2 ++ [Access i]) = (w2, rs2) -> last rs2 Throw = Ptr p.
Proof.
  intros d lo hi w os os2 i n p w1 rs w2 rs2 D S0 P E1 H ND E2. apply proper_app in P as (P1 & P2). apply proper_app in P2 as (P2 & P3).
  destruct (history_ok d lo hi w os w1 rs D S0 P1 E1) as (OK & _ & AG). apply AG in H as (v & H & R & V). destruct (start_facts _ _ _ S0) as (OK0 & SI & _).
  pose proof (ids_ok d lo hi os w w1 rs [] D OK0 SI P1 E1) as SI1. rewrite run_app, E1 in E2. rewrite run_app in E2. destruct (run d w1 os2) as (w3 & rs3) eqn:E3.
  destruct (run_ptr d lo hi os2 w1 w3 rs3 _ i v p D OK SI1 P2 E3 H V ND) as (v' & H' & V').
  assert (AG1 : exists k, agree k w1) by eauto. destruct AG1 as (k & AG1). destruct (run_ok d lo hi os2 w1 w3 rs3 _ k D OK SI1 AG1 P2 E3) as (OK3 & _).
  assert (N3 : NoDup (map fst (w_views w3))) by apply OK3. cbn [run step] in E2. rewrite (in_find _ _ _ _ N3 H') in E2. unfold access in E2. rewrite V' in E2. injection E2 as <- <-.
  rewrite app_assoc. apply last_last.
Qed.
(** When all views have been released, destroying the context returns every allocation to the driver. *)
Theorem C67_no_leak : forall d lo hi w os w' rs, driver_ok d -> start lo hi w -> proper [] os -> run d w os = (w', rs) -> held [] os rs = [] -> destroy w' = [].
Proof.
  intros d lo hi w os w' rs D S0 P E H. destruct (history_ok d lo hi w os w' rs D S0 P E) as (OK & _ & AG). rewrite H in AG. eapply destroy_ok; eauto.
  destruct (w_views w') as [|(i & v) l] eqn:W; auto. exfalso. assert (In (i, (v_req v, v_ptr v)) []) by (apply AG; exists v; rewrite W; split; [left; auto|auto]). auto.
Qed.
(** A call fails only if the driver refuses memory. *)
Theorem C67_no_failure : forall d lo hi w os w' rs, start lo hi w -> (forall t live size, 0 < size -> d t live size <> None) -> (forall id req a b, In (New id req a b) os -> 0 < req) ->
  run d w os = (w', rs) -> ~ In Throw rs.
Proof. intros d lo hi w os w' rs (p & _ & ->) D Q E. eapply no_throw; [exact D| |exact Q|exact E]. intros i v []. Qed.
(** The size a view reports is at least the size asked for. *)
Theorem C67_size_partial : forall d lo hi w os w' rs i n p w2 s, driver_ok d -> start lo hi w -> proper [] os -> run d w os = (w', rs) ->
  In (i, (n, p)) (held [] os rs) -> step d w' (Size i) = (w2, Bytes s) -> n <= s.
Proof.
  intros d lo hi w os w' rs i n p w2 s D S0 P E H ST. destruct (history_ok d lo hi w os w' rs D S0 P E) as (OK & _ & AG). apply AG in H as (v & H & R & V).
  destruct OK as (_ & _ & _ & _ & N & W6 & _). cbn in ST. rewrite (in_find _ _ _ _ N H) in ST. injection ST as _ <-. destruct (W6 _ _ H) as (L & _). lia.
Qed.
(** Finding: the size of a shared view from the pool (ispcrtSize) is the size asked for before the first access and a larger one,
    rounded up to a chunk, after it. *)
Theorem C67_size_refuted : exists d lo hi w os w' rs, driver_ok d /\ start lo hi w /\ proper [] os /\ run d w os = (w', rs) /\ os = [New 1 5 true true; Size 1; Access 1; Size 1] /\ rs = [Done; Bytes 5; Ptr 64; Bytes 8].
Proof.
  exists (fun _ live size => match live, size with [], S _ => Some 64 | _, _ => None end), 1, 4. eexists. eexists. eexists. eexists.
  split; [|split; [|split; [|split; [|split; reflexivity]]]].
  - intros t live size base H. destruct live; [|discriminate]. destruct size; [discriminate|]. split; [lia|intros h []].
  - eexists. split; reflexivity.
  - cbn. intuition discriminate.
  - reflexivity.
Qed.
(** Finding: with ISPCRT_MEM_POOL set, a shared view created for a device and a hint that selects the pool has no pool:
    m_memPool is null and is dereferenced. *)
Theorem C67_device_view_refuted : exists d lo hi w, driver_ok d /\ start lo hi w /\ snd (run d w [New 1 5 true false; Access 1]) = [Done; Crash].
Proof.
  exists (fun _ _ _ => None), 1, 4. eexists. split; [|split; [eexists; split; reflexivity|reflexivity]]. intros t live size base H. discriminate.
Qed.

(** A released chunk is used again: if view i has a chunk of the pool and no call has failed so far, then after its release a
    new view of the same size gets memory without a call of the driver. *)
Theorem C67_reuse : forall d lo hi w os w' rs i v q j w2 rs2, driver_ok d -> start lo hi w -> proper [] os -> run d w os = (w', rs) -> ~ In Throw rs ->
  In (i, v) (w_views w') -> v_pool v = true -> v_ptr v = Some q -> v_size v <= 2 ^ hi -> ~ In j (map fst (w_views w')) ->
  run d w' [Delete i; New j (v_req v) true true; Access j] = (w2, rs2) ->
  w_time w2 = w_time w' /\ w_hunks w2 = w_hunks w' /\ exists p, rs2 = [Done; Done; Ptr p].
Proof. exact reuse. Qed.
(** Finding: not after a call has failed because the driver had no memory.  Then the bulk without memory may be in front of one
    with a free chunk, and accesses go on failing. *)
Theorem C67_reuse_refuted : exists d w w' rs, driver_ok d /\ start 1 1 w /\
  run d w [New 1 2 true true; Access 1; New 2 2 true true; Access 2; Access 2; Delete 1; New 3 2 true true; Access 3] = (w', rs) /\
  rs = [Done; Ptr 64; Done; Throw; Throw; Done; Done; Throw] /\ (exists b, In b (all_bulks (w_pool w')) /\ b_chunk b = 2 /\ b_mem b = Some 64 /\ b_free b = [0]).
Proof.
  exists (fun t live size => match t, live, size with 0, [], S _ => Some 64 | _, _, _ => None end). do 3 eexists.
  split; [|split; [eexists; split; reflexivity|split; [vm_compute; reflexivity|split; [reflexivity|]]]].
  - intros t live size base H. destruct t; [|discriminate]. destruct live; [|discriminate]. destruct size; [discriminate|]. split; [lia|intros h []].
  - eexists. split; [vm_compute; right; left; reflexivity|]. auto.
Qed.

(** ** Cases: a driver that puts every allocation behind the others *)
Definition bump : driver := fun _ live size => if size =? 0 then None else Some (fold_right (fun h m => Nat.max (fst h + snd h) m) 64 live).
Example bump_ok : driver_ok bump.
Proof.
  intros t live size base H. unfold bump in H. destruct (Nat.eqb_spec size 0); [discriminate|]. injection H as <-. split; [lia|]. intros h I0. right. cbn.
  induction live as [|x l IH]; [destruct I0|]. cbn. destruct I0 as [<- |I0]; [lia|]. specialize (IH I0). lia.
Qed.
Definition calls : list op := [New 1 3 true true; New 2 5 true true; New 3 4 true true; Access 1; Access 2; Access 3; New 4 3 true true; Access 4; Delete 1;
  New 5 4 true true; Access 5; New 6 100 true true; Access 6; New 7 4 false false; Access 7; Delete 6; New 8 9 true true; Access 8].
Example calls_proper : proper [] calls.
Proof. cbn. intuition discriminate. Qed.
Example calls_run : exists w, start 2 4 w /\ snd (run bump w calls) =
    [Done; Done; Done; Ptr 64; Ptr 80; Ptr 68; Done; Ptr 72; Done; Done; Ptr 64; Done; Ptr 96; Done; Ptr 196; Done; Done; Ptr 200] /\
  held [] calls (snd (run bump w calls)) = [(8, (9, Some 200)); (7, (4, Some 196)); (5, (4, Some 64)); (4, (3, Some 72)); (3, (4, Some 68)); (2, (5, Some 80))] /\ length (w_hunks (fst (run bump w calls))) = 4.
Proof. eexists. split; [eexists; split; reflexivity|]. vm_compute. auto. Qed.
Example release_run : exists w, start 2 4 w /\ let os := calls ++ map Delete [2; 3; 4; 5; 7; 8] in proper [] os /\ held [] os (snd (run bump w os)) = [] /\ length (w_hunks (fst (run bump w os))) = 3.
Proof. eexists. split; [eexists; split; reflexivity|]. cbn zeta. split; [cbn; intuition discriminate|]. vm_compute. auto. Qed.

Print Assumptions C67_disjoint.
Print Assumptions C67_inside.
Print Assumptions C67_allocations_disjoint.
Print Assumptions C67_no_crash.
Print Assumptions C67_stable.
Print Assumptions C67_no_leak.
Print Assumptions C67_no_failure.
Print Assumptions C67_size_partial.
Print Assumptions C67_size_refuted.
Print Assumptions C67_device_view_refuted.
Print Assumptions C67_reuse.
Print Assumptions C67_reuse_refuted.
Example C67_reuse_ex : exists w w' rs v q, start 1 4 w /\ run bump w [New 1 5 true true; New 2 3 true true; Access 1] = (w', rs) /\ ~ In Throw rs /\
  In (1, v) (w_views w') /\ v_pool v = true /\ v_ptr v = Some q /\ v_size v <= 2 ^ 4 /\ ~ In 3 (map fst (w_views w')).
Proof.
  do 5 eexists. split; [eexists; split; reflexivity|]. split; [vm_compute; reflexivity|]. split; [cbn; intuition discriminate|]. split; [left; reflexivity|].
  split; [reflexivity|]. split; [reflexivity|]. split; [cbn; lia|cbn; intuition discriminate].
Qed.
