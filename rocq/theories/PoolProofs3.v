(** Proofs about the memory pool (C67): views. *)
From Coq Require Import List Bool Arith Lia Permutation.
Import ListNotations.
From Verif Require Import PoolModel PoolSpec PoolProofs PoolProofs2.

(** ** Freeing *)
Section Free.
Variables (id ptr : nat) (b b' : bulk).
Hypothesis FC : free_chunk ptr b = Some b'.
Definition swap (x : bulk) : bulk := if b_id x =? id then b' else x.
Lemma free_in_ok : forall l, (forall x, In x l -> b_id x = id -> x = b) -> free_in id ptr l = Some (map swap l).
Proof.
  induction l as [|x l IH]; intros H; auto. cbn [free_in map]. rewrite IH by (intros; apply H; auto; right; auto). 
  assert (SX : swap x = if b_id x =? id then b' else x) by reflexivity. rewrite SX. destruct (Nat.eqb_spec (b_id x) id) as [E|E]; [|reflexivity].
  assert (x = b) by (apply H; [left; auto|auto]). subst x. rewrite FC. reflexivity.
Qed.
Lemma free_lists_ok : forall ls, (forall x, In x (flat_map snd ls) -> b_id x = id -> x = b) -> free_lists id ptr ls = Some (map (fun e => (fst e, map swap (snd e))) ls).
Proof.
  induction ls as [|[k l] ls IH]; intros H; auto. cbn [free_lists map fst snd]. cbn in H. rewrite free_in_ok by (intros; apply H; auto; apply in_or_app; auto).
  rewrite IH by (intros; apply H; auto; apply in_or_app; auto). auto.
Qed.
Lemma flat_swap : forall ls, flat_map snd (map (fun e : nat * list bulk => (fst e, map swap (snd e))) ls) = map swap (flat_map snd ls).
Proof. induction ls as [|[k l] ls IH]; auto. cbn. rewrite map_app, IH. auto. Qed.
Lemma map_swap : forall l, ~ In id (map b_id l) -> map swap l = l.
Proof.
  induction l as [|x l IH]; intros H; auto. cbn in *. unfold swap at 1. destruct (Nat.eqb_spec (b_id x) id); [exfalso; auto|]. f_equal. auto.
Qed.
End Free.
Lemma pool_free_ok : forall lo hi p ptr, pool_ok lo hi p -> In ptr (map fst (p_alloc p)) ->
  exists p', pool_free ptr p = Some p' /\ pool_ok lo hi p' /\ Permutation (hunks_of (2 ^ hi) (all_bulks p')) (hunks_of (2 ^ hi) (all_bulks p)) /\
    p_alloc p' = erase ptr (p_alloc p) /\
    forall b, In b (all_bulks p) -> exists b', In b' (all_bulks p') /\ b_chunk b' = b_chunk b /\ forall q, q <> ptr -> In q (map fst (b_used b)) -> In q (map fst (b_used b')).
Proof.
  intros lo hi p ptr (L0 & O1 & O2 & O3 & O4 & O5) H. apply in_map_iff in H as ((p0 & id) & E & H). cbn in E. subst p0.
  pose proof O5 as (A1 & A2 & A3 & A4 & A5). pose proof (proj1 (A5 _ _) H) as (b & IB & EB & UB).
  assert (OKb : bulk_ok (2 ^ hi) b) by (rewrite Forall_forall in A1; auto). destruct (free_ok _ ptr b OKb UB) as (b' & F1 & F2 & F3 & F4 & F5 & F6).
  pose proof IB as IB2. apply in_split in IB2 as (B1 & B2 & EQ). assert (PB : Permutation (all_bulks p) (b :: B1 ++ B2)) by (rewrite EQ; symmetry; apply Permutation_middle).
  assert (ND : NoDup (map b_id (b :: B1 ++ B2))) by (eapply Permutation_NoDup; [apply Permutation_map; exact PB|auto]). cbn in ND. inversion ND as [|? ? N1 N2]; subst.
  assert (UQ : forall x, In x (flat_map snd (p_lists p)) -> b_id x = b_id b -> x = b).
  { intros x X EX. eapply Permutation_in in X; [|exact PB]. destruct X as [X|X]; auto. exfalso. apply N1. rewrite <- EX. apply in_map. auto. }
  unfold pool_free. rewrite (in_find _ _ _ _ A4 H). rewrite (free_lists_ok _ _ _ _ F1 _ UQ). eexists. split; [reflexivity|].
  set (p' := Pool _ _ _ _ _).
  assert (PB' : Permutation (all_bulks p') (b' :: B1 ++ B2)).
  { unfold all_bulks, p'. cbn [p_lists]. rewrite flat_swap. fold (all_bulks p). rewrite PB. cbn [map]. rewrite map_swap by auto. unfold swap. rewrite Nat.eqb_refl. auto. }
  assert (PI' : pinv (2 ^ p_max p) (p_next p) (b' :: B1 ++ B2) (erase ptr (p_alloc p))) by (eapply pinv_free; eauto; eapply pinv_perm; eauto).
  split; [|split; [|split; [auto|]]].
  - split; auto. split; auto. split; auto. split; [cbn [p' p_lists]; rewrite map_map; rewrite <- O3; apply map_ext; auto|]. split.
    + cbn [p' p_lists]. intros k l IL. apply in_map_iff in IL as ((k2 & l2) & E & IL). cbn in E. injection E as <- <-. destruct (O4 _ _ IL) as (Q1 & Q2). split; [destruct l2; [congruence|discriminate]|].
      intros x X. apply in_map_iff in X as (y & <- & Y). unfold swap. destruct (Nat.eqb_spec (b_id y) (b_id b)) as [EY|EY]; [|auto]. rewrite F4. rewrite <- (UQ y); auto. apply in_flat_map. exists (k2, l2). auto.
    + eapply pinv_perm; [symmetry; exact PB'|]. exact PI'.
  - rewrite (hunks_perm _ _ _ PB), (hunks_perm _ _ _ PB'). unfold hunks_of. cbn [flat_map]. unfold hunk_of at 1 3. rewrite F5. auto.
  - intros x X. eapply Permutation_in in X; [|exact PB]. destruct X as [<- |X].
    + exists b'. split; [eapply Permutation_in; [symmetry; exact PB'|left; auto]|]. split; auto. intros q NQ UQ'. rewrite F6. apply in_map_iff in UQ' as (e & E & IE). apply in_map_iff. exists e. split; auto. apply erase_in. split; auto. congruence.
    + exists x. split; [eapply Permutation_in; [symmetry; exact PB'|right; auto]|]. auto.
Qed.

(** ** Worlds *)
Definition in_pool (max : nat) (v : view) : bool := v_pool v && (v_size v <=? max).
Definition direct (max : nat) (e : nat * view) : list (nat * nat) :=
  match v_ptr (snd e) with Some p => if in_pool max (snd e) then [] else [(p, v_size (snd e))] | None => [] end.
Definition pooled_ptr (max : nat) (e : nat * view) : list nat :=
  match v_ptr (snd e) with Some p => if in_pool max (snd e) then [p] else [] | None => [] end.
Definition view_ok (max : nat) (B : list bulk) (v : view) : Prop :=
  v_req v <= v_size v /\ (v_pool v = true -> v_ctx v = true) /\
  forall p, v_ptr v = Some p -> in_pool max v = true -> exists b, In b B /\ b_chunk b = v_size v /\ In p (map fst (b_used b)).
Definition world_ok (lo hi : nat) (w : world) : Prop :=
  pool_ok lo hi (w_pool w) /\ pairwise (w_hunks w) /\ Forall (fun h => 0 < snd h) (w_hunks w) /\
  Permutation (w_hunks w) (hunks_of (2 ^ hi) (all_bulks (w_pool w)) ++ flat_map (direct (2 ^ hi)) (w_views w)) /\
  NoDup (map fst (w_views w)) /\ (forall id v, In (id, v) (w_views w) -> view_ok (2 ^ hi) (all_bulks (w_pool w)) v) /\
  NoDup (flat_map (pooled_ptr (2 ^ hi)) (w_views w)).

Lemma start_ok : forall lo hi w, start lo hi w -> world_ok lo hi w.
Proof.
  intros lo hi w (p & E & ->). unfold new_pool in E. destruct ((1 <=? lo) && (lo <=? 30) && (lo <=? hi) && (hi <=? 30)) eqn:C; [|discriminate]. apply (f_equal (fun o => match o with Some q => q | None => p end)) in E. rewrite <- E. clear E p.
  rewrite !andb_true_iff in C. destruct C as (((C1 & C2) & C3) & C4). apply Nat.leb_le in C1, C2, C3, C4. clear C1 C2 C4.
  assert (FM : forall s n, flat_map snd (map (fun i => (2 ^ i, [new_bulk i (2 ^ i) (2 ^ hi)])) (seq s n)) = map (fun i => new_bulk i (2 ^ i) (2 ^ hi)) (seq s n)).
  { intros s n. revert s. induction n; intros s; cbn; auto. f_equal. auto. }
  assert (HN : forall l, hunks_of (2 ^ hi) (map (fun i => new_bulk i (2 ^ i) (2 ^ hi)) l) = []) by (induction l; cbn; auto).
  split; [split; auto; split; auto; split; auto|].
  - split; [cbn [p_lists w_pool]; rewrite map_map; auto|]. split.
    + cbn [p_lists w_pool]. intros k l H. apply in_map_iff in H as (i & E & H). injection E as <- <-. split; [discriminate|]. intros b [<- |[]]. auto.
    + unfold all_bulks. cbn [p_lists p_next p_alloc w_pool]. rewrite FM. split; [apply Forall_forall; intros b H; apply in_map_iff in H as (i & <- & H); apply in_seq in H; destruct H as (H1 & H2); apply new_bulk_ok; lia|].
      split; [rewrite map_map; cbn; rewrite map_id; apply seq_NoDup|]. split; [apply Forall_forall; intros b H; apply in_map_iff in H as (i & <- & H); apply in_seq in H; cbn; lia|]. split; [constructor|].
      intros ptr id. split; [intros []|]. intros (b & H & _ & U). apply in_map_iff in H as (i & <- & H). destruct U.
  - split; [constructor|]. split; [constructor|]. cbn [w_hunks w_pool w_views]. split; [unfold all_bulks; cbn [p_lists w_pool]; rewrite FM, HN; constructor|]. split; [constructor|]. split; [intros id v []|constructor].
Qed.
Lemma view_mono : forall max B B' v, (forall b, In b B -> exists b', In b' B' /\ b_chunk b' = b_chunk b /\ forall q, v_ptr v = Some q -> In q (map fst (b_used b)) -> In q (map fst (b_used b'))) ->
  view_ok max B v -> view_ok max B' v.
Proof.
  intros max B B' v K (A1 & A2 & A3). split; auto. split; auto. intros p E P. destruct (A3 p E P) as (b & I0 & C & U). destruct (K b I0) as (b' & I1 & C' & U'). exists b'. split; auto. split; [congruence|]. auto.
Qed.
Lemma step_ok : forall d lo hi w o w' r ids, driver_ok d -> world_ok lo hi w -> (forall i, In i ids <-> In i (map fst (w_views w))) -> proper ids [o] -> step d w o = (w', r) ->
  world_ok lo hi w' /\ r <> Crash.
Proof.
  intros d lo hi w o w' r ids D OK IDS PR E. pose proof OK as (W1 & W2 & W3 & W4 & W5 & W6 & W7).
  assert (MX : max_chunk (w_pool w) = 2 ^ hi) by (destruct W1 as (_ & _ & X & _); unfold max_chunk; rewrite X; auto).
  assert (MN : min_chunk (w_pool w) = 2 ^ lo) by (destruct W1 as (_ & X & _); unfold min_chunk; rewrite X; auto).
  destruct o as [id req pooled ctx|id|id|id]; cbn [step proper] in *.
  - destruct PR as (NI & PC & _). rewrite IDS in NI. injection E as <- <-. split; [|discriminate]. unfold assign. rewrite (erase_id _ _ _ NI).
    split; auto. split; auto. split; auto. split; [exact W4|]. split; [cbn; constructor; auto|]. split; [|exact W7].
    intros i v [H|H]; [injection H as <- <-|eauto]. split; [cbn; lia|]. split; auto. cbn. discriminate.
  - destruct PR as (II & _). rewrite IDS in II. apply in_map_iff in II as ((id2 & v) & EI & II). cbn in EI. subst id2. rewrite (in_find _ _ _ _ W5 II) in E.
    unfold access in E. destruct (v_ptr v) as [p|] eqn:VP; [injection E as <- <-; split; [auto|discriminate]|].
    destruct (W6 id v II) as (V1 & V2 & _). pose proof (erase_perm _ _ _ _ W5 II) as PE.
    assert (NC : v_pool v && negb (v_ctx v) = false) by (destruct (v_pool v); auto; rewrite V2; auto). rewrite NC in E. rewrite MX, MN in E.
    (* the view gets a pointer, or a new size *)
    assert (DV : Permutation (flat_map (direct (2 ^ hi)) (w_views w)) (flat_map (direct (2 ^ hi)) (erase id (w_views w)))).
    { rewrite (Permutation_flat_map (direct (2 ^ hi)) PE). cbn [flat_map]. unfold direct at 1. cbn [snd]. rewrite VP. auto. }
    assert (DP : Permutation (flat_map (pooled_ptr (2 ^ hi)) (w_views w)) (flat_map (pooled_ptr (2 ^ hi)) (erase id (w_views w)))).
    { rewrite (Permutation_flat_map (pooled_ptr (2 ^ hi)) PE). cbn [flat_map]. unfold pooled_ptr at 1. cbn [snd]. rewrite VP. auto. }
    assert (W7' : NoDup (flat_map (pooled_ptr (2 ^ hi)) (erase id (w_views w)))) by (eapply Permutation_NoDup; eauto).
    destruct (v_pool v && (v_size v <=? 2 ^ hi)) eqn:VI.
    + apply andb_true_iff in VI as (VI1 & VI2). apply Nat.leb_le in VI2. destruct (chunk_size (v_req v) lo hi) as (a & EA & LA); [destruct W1; lia|lia|]. rewrite EA in E.
      assert (RA : v_req v <= 2 ^ a) by (rewrite <- EA; pose proof (round_ge (v_req v)); lia).
      destruct (pool_alloc d (2 ^ a) (w_pool w) (w_time w) (w_hunks w)) as (((p' & t') & hs') & g) eqn:PA.
      destruct (pool_alloc_ok d lo hi _ a _ _ _ p' t' hs' g D W1 LA W2 W4 PA) as (Q1 & Q2 & Q3 & Q4 & Q5).
      assert (PZ : Forall (fun h => 0 < snd h) hs').
      { assert (HH : Permutation hs' (hunks_of (2 ^ hi) (all_bulks p') ++ flat_map (direct (2 ^ hi)) (w_views w))) by auto.
        eapply Permutation_Forall; [symmetry; exact HH|]. apply Forall_app. eapply Permutation_Forall in W3; [|exact W4]. apply Forall_app in W3 as (_ & W3). split; auto.
        apply Forall_forall. intros h H. apply in_flat_map in H as (b & _ & H). unfold hunk_of in H. destruct (b_mem b); [|destruct H]. destruct H as [<- |[]]. cbn. apply pow2_pos'. }
      assert (OLD : forall i x, In (i, x) (erase id (w_views w)) -> view_ok (2 ^ hi) (all_bulks p') x).
      { intros i x X. apply erase_in in X as (X & _). eapply view_mono; [|eapply W6; eauto]. intros b IB. destruct (Q4 b IB) as (b' & ? & ? & ? & ?). eauto. }
      destruct Q5 as [-> |(ptr & -> & FR & b & B1 & B2 & B3)].
      * injection E as <- <-. split; [|discriminate]. split; auto. split; auto. split; auto. unfold set_view, assign. cbn [w_pool w_views w_hunks].
        split; [cbn [flat_map]; unfold direct at 1; cbn; rewrite Q3; apply Permutation_app_head; auto|]. split; [apply assign_nodup; auto|].
        split; [|cbn [flat_map]; unfold pooled_ptr at 1; cbn; auto]. intros i x [X|X]; [|eauto]. injection X as <- <-. split; [cbn; auto|]. split; auto. cbn. discriminate.
      * injection E as <- <-. split; [|discriminate]. split; auto. split; auto. split; auto. unfold set_view, assign. cbn [w_pool w_views w_hunks].
        assert (IP : in_pool (2 ^ hi) (View (v_req v) (2 ^ a) (Some ptr) (v_pool v) (v_ctx v)) = true).
        { unfold in_pool. cbn. rewrite VI1. apply Nat.leb_le. apply Nat.pow_le_mono_r; lia. }
        split; [cbn [flat_map]; unfold direct at 1; cbn [snd v_ptr]; rewrite IP; rewrite Q3; apply Permutation_app_head; auto|]. split; [apply assign_nodup; auto|].
        split; [intros i x [X|X]; [|eauto]; injection X as <- <-; split; [cbn; auto|]; split; auto; cbn; intros q Eq _; injection Eq as <-; eauto|].
        cbn [flat_map]. unfold pooled_ptr at 1. cbn [snd v_ptr]. rewrite IP. cbn [app]. constructor; auto. intros X. apply in_flat_map in X as ((i & x) & X1 & X2). apply erase_in in X1 as (X1 & _).
        unfold pooled_ptr in X2. cbn [snd] in X2. destruct (v_ptr x) as [q|] eqn:XP; [|destruct X2]. destruct (in_pool (2 ^ hi) x) eqn:XI; [|destruct X2]. destruct X2 as [-> |[]].
        destruct (W6 i x X1) as (_ & _ & W). destruct (W ptr XP XI) as (b2 & I2 & _ & U2). apply FR. destruct W1 as (_ & _ & _ & _ & _ & (_ & _ & _ & _ & A5)).
        apply in_map_iff. exists (ptr, b_id b2). split; auto. apply A5. exists b2. auto.
    + unfold ask in E. destruct (d (w_time w) (w_hunks w) (v_size v)) as [base|] eqn:DD; injection E as <- <-; (split; [|discriminate]); [|exact OK].
      destruct (D _ _ _ _ DD) as (S0 & AP). split; auto. split; [apply pairwise_cons; split; auto; apply Forall_forall; auto|]. split; [constructor; auto|]. unfold set_view, assign. cbn [w_pool w_views w_hunks].
      assert (IP : in_pool (2 ^ hi) (View (v_req v) (v_size v) (Some base) (v_pool v) (v_ctx v)) = false) by exact VI.
      split; [cbn [flat_map]; unfold direct at 1; cbn [snd v_ptr]; rewrite IP; cbn [app v_size]; rewrite <- Permutation_middle; constructor; rewrite W4; apply Permutation_app_head; auto|].
      split; [apply assign_nodup; auto|]. split; [intros i x [X|X]; [|apply erase_in in X as (X & _); eauto]; injection X as <- <-; split; [cbn; auto|]; split; auto; intros q _ Q; congruence|].
      cbn [flat_map]. unfold pooled_ptr at 1. cbn [snd v_ptr]. rewrite IP. auto.
  - destruct PR as (II & _). rewrite IDS in II. apply in_map_iff in II as ((id2 & v) & EI & II). cbn in EI. subst id2. rewrite (in_find _ _ _ _ W5 II) in E. injection E as <- <-. split; [auto|discriminate].
  - destruct PR as (II & _). rewrite IDS in II. apply in_map_iff in II as ((id2 & v) & EI & II). cbn in EI. subst id2. rewrite (in_find _ _ _ _ W5 II) in E.
    destruct (W6 id v II) as (V1 & V2 & V3). pose proof (erase_perm _ _ _ _ W5 II) as PE.
    assert (NC : v_pool v && negb (v_ctx v) = false) by (destruct (v_pool v); auto; rewrite V2; auto).
    unfold delete in E. rewrite NC, MX in E.
    assert (NDe : NoDup (map fst (erase id (w_views w)))) by (apply erase_nodup; auto).
    destruct (v_ptr v) as [p|] eqn:VP.
    + change (v_pool v && (v_size v <=? 2 ^ hi)) with (in_pool (2 ^ hi) v) in E. destruct (in_pool (2 ^ hi) v) eqn:VI.
      * destruct (V3 p eq_refl eq_refl) as (b & IB & CB & UB).
        assert (PA : In p (map fst (p_alloc (w_pool w)))).
        { destruct W1 as (_ & _ & _ & _ & _ & (_ & _ & _ & _ & A5)). apply in_map_iff. exists (p, b_id b). split; auto. apply A5. exists b. auto. }
        destruct (pool_free_ok lo hi _ p W1 PA) as (p' & F1 & F2 & F3 & F4 & F5). rewrite F1 in E. injection E as <- <-. split; [|discriminate].
        assert (W7' : NoDup (p :: flat_map (pooled_ptr (2 ^ hi)) (erase id (w_views w)))).
        { eapply Permutation_NoDup; [|exact W7]. rewrite (Permutation_flat_map (pooled_ptr (2 ^ hi)) PE). cbn [flat_map]. unfold pooled_ptr at 1. cbn [snd]. rewrite VP, VI. auto. }
        inversion W7' as [|? ? N1 N2]; subst.
        split; auto. split; auto. split; auto. cbn [w_pool w_views w_hunks].
        split; [rewrite W4, F3; apply Permutation_app_head; rewrite (Permutation_flat_map (direct (2 ^ hi)) PE); cbn [flat_map]; unfold direct at 1; cbn [snd]; rewrite VP, VI; auto|].
        split; auto. split; auto. intros i x X. pose proof X as X0. apply erase_in in X as (X & NX). pose proof (W6 i x X) as VX.
        destruct VX as (X1 & X2 & X3). split; auto. split; auto. intros q Q1 Q2. destruct (X3 q Q1 Q2) as (b2 & I2 & C2 & U2). destruct (F5 b2 I2) as (b3 & I3 & C3 & U3). exists b3. split; auto. split; [congruence|]. apply U3; auto.
        intros ->. apply N1. apply in_flat_map. exists (i, x). split; auto. unfold pooled_ptr. cbn [snd]. rewrite Q1, Q2. left. auto.
      * injection E as <- <-. split; [|discriminate]. cbn [w_pool w_views w_hunks].
        assert (PH : Permutation (w_hunks w) ((p, v_size v) :: hunks_of (2 ^ hi) (all_bulks (w_pool w)) ++ flat_map (direct (2 ^ hi)) (erase id (w_views w)))).
        { rewrite W4. rewrite (Permutation_flat_map (direct (2 ^ hi)) PE). cbn [flat_map]. unfold direct at 1. cbn [snd]. rewrite VP, VI. cbn [app]. symmetry. apply Permutation_middle. }
        assert (IH : In (p, v_size v) (w_hunks w)) by (eapply Permutation_in; [symmetry; exact PH|left; auto]).
        assert (NDH : NoDup (map fst (w_hunks w))).
        { clear - W2 W3. induction (w_hunks w) as [|h l IHl]; cbn; [constructor|]. apply pairwise_cons in W2 as (P1 & P2). inversion W3 as [|? ? Z1 Z2]; subst. constructor; auto.
          intros X. apply in_map_iff in X as (h2 & EX & X). rewrite Forall_forall in P1, Z2. specialize (P1 _ X). specialize (Z2 _ X). unfold apart in P1. lia. }
        pose proof (erase_perm _ _ _ _ NDH IH) as PEH.
        assert (PH2 : Permutation (free_hunk p (w_hunks w)) (hunks_of (2 ^ hi) (all_bulks (w_pool w)) ++ flat_map (direct (2 ^ hi)) (erase id (w_views w)))).
        { unfold free_hunk. apply Permutation_cons_inv with (a := (p, v_size v)). rewrite <- PEH. auto. }
        split; auto. cbn [w_pool w_views w_hunks].
        pose proof (pairwise_perm _ _ PEH W2) as W2'. apply pairwise_cons in W2' as (_ & W2'). pose proof (Permutation_Forall PEH W3) as W3'. inversion W3' as [|? ? _ W3'']; subst.
        split; auto. split; auto. split; auto. split; auto. split; [intros i x X; apply erase_in in X as (X & _); eauto|].
        pose proof (Permutation_NoDup (Permutation_flat_map (pooled_ptr (2 ^ hi)) PE) W7) as W7'. cbn [flat_map] in W7'. unfold pooled_ptr at 1 in W7'. cbn [snd] in W7'. rewrite VP, VI in W7'. auto.
    + injection E as <- <-. split; [|discriminate]. split; auto. split; auto. split; auto. cbn [w_pool w_views w_hunks].
      split; [rewrite W4; apply Permutation_app_head; rewrite (Permutation_flat_map (direct (2 ^ hi)) PE); cbn [flat_map]; unfold direct at 1; cbn [snd]; rewrite VP; auto|].
      split; auto. split; [intros i x X; apply erase_in in X as (X & _); eauto|].
      pose proof (Permutation_NoDup (Permutation_flat_map (pooled_ptr (2 ^ hi)) PE) W7) as W7'. cbn [flat_map] in W7'. unfold pooled_ptr at 1 in W7'. cbn [snd] in W7'. rewrite VP in W7'. auto.
Qed.
