(** Proofs about the memory pool (C67): histories. *)
From Coq Require Import List Bool Arith Lia Permutation.
Import ListNotations.
From Verif Require Import PoolModel PoolSpec PoolProofs PoolProofs2 PoolProofs3.

Definition agree (k : known) (w : world) : Prop :=
  forall id req p, In (id, (req, p)) k <-> exists v, In (id, v) (w_views w) /\ v_req v = req /\ v_ptr v = p.
Definition same_ids (ids : list nat) (w : world) : Prop := forall i, In i ids <-> In i (map fst (w_views w)).
(** A view changes: the same number, the same request. *)
Lemma agree_set : forall k w id v v', NoDup (map fst (w_views w)) -> In (id, v) (w_views w) -> agree k w -> v_req v' = v_req v ->
  forall id2 req p, (exists v2, In (id2, v2) (assign id v' (w_views w)) /\ v_req v2 = req /\ v_ptr v2 = p) <->
    ((id2 = id /\ req = v_req v /\ p = v_ptr v') \/ (id2 <> id /\ In (id2, (req, p)) k)).
Proof.
  intros k w id v v' N IV A R id2 req p. split.
  - intros (v2 & [H|H] & E1 & E2); [injection H as <- <-; left; repeat split; congruence|]. apply erase_in in H as (H & NE). right. split; auto. apply A. eauto.
  - intros [(-> & -> & ->)|(NE & H)]; [exists v'; split; [left; auto|auto]|]. apply A in H as (v2 & H & E1 & E2). exists v2. split; auto. right. apply erase_in. auto.
Qed.
Lemma find_view : forall ids w id, NoDup (map fst (w_views w)) -> same_ids ids w -> In id ids -> exists v, find_key id (w_views w) = Some v /\ In (id, v) (w_views w).
Proof.
  intros ids w id N S0 H. apply S0 in H. apply in_map_iff in H as ((i & v) & E & H). cbn in E. subst i. exists v. split; auto. apply in_find; auto.
Qed.
Lemma assign_keys : forall A id (v : A) l, In id (map fst l) -> forall i, In i (map fst (assign id v l)) <-> In i (map fst l).
Proof.
  intros A id v l H i. cbn. split.
  - intros [<- |X]; auto. apply in_map_iff in X as (e & E & X). apply erase_in in X as (X & _). subst. apply in_map. auto.
  - intros X. destruct (Nat.eq_dec id i) as [E|E]; auto. right. apply in_map_iff in X as (e & <- & X). apply in_map. apply erase_in. split; auto.
Qed.
Lemma access_shape : forall d id v w w' r, access d id v w = (w', r) ->
  (r = Crash) \/ (w_views w' = w_views w /\ ((r = Throw /\ v_ptr v = None) \/ exists p, v_ptr v = Some p /\ r = Ptr p)) \/
  (v_ptr v = None /\ exists v', w_views w' = assign id v' (w_views w) /\ v_req v' = v_req v /\ ((r = Throw /\ v_ptr v' = None) \/ exists p, r = Ptr p /\ v_ptr v' = Some p)).
Proof.
  intros d id v w w' r H. unfold access in H. destruct (v_ptr v) as [p|] eqn:VP; [injection H as <- <-; right; left; split; eauto|].
  destruct (v_pool v && negb (v_ctx v)); [injection H as <- <-; auto|]. destruct (v_pool v && (v_size v <=? max_chunk (w_pool w))).
  - destruct (pool_alloc _ _ _ _ _) as (((p' & t') & hs') & [ptr| |]); injection H as <- <-; auto; right; right; (split; auto); (eexists; split; [reflexivity|]); cbn; eauto.
  - destruct (ask _ _ _ _) as ((t' & hs') & [base|]); injection H as <- <-; [|right; left; auto]. right. right. split; auto. eexists. split; [reflexivity|]. cbn. eauto.
Qed.
Lemma delete_shape : forall id v w w' r, delete id v w = (w', r) -> r = Crash \/ (r = Done /\ w_views w' = erase id (w_views w)).
Proof.
  intros id v w w' r H. unfold delete in H. destruct (v_ptr v); [|injection H as <- <-; auto]. destruct (v_pool v && negb (v_ctx v)); [injection H as <- <-; auto|].
  destruct (v_pool v && (v_size v <=? max_chunk (w_pool w))); [|injection H as <- <-; auto]. destruct (pool_free _ _); injection H as <- <-; auto.
Qed.
Definition next_ids (ids : list nat) (o : op) : list nat := match o with New id _ _ _ => id :: ids | Delete id => remove Nat.eq_dec id ids | _ => ids end.
Lemma proper_cons : forall ids o os, proper ids (o :: os) <-> proper ids [o] /\ proper (next_ids ids o) os.
Proof. intros ids [] os; cbn; tauto. Qed.
Lemma step_agree : forall d lo hi w o w' r ids k, world_ok lo hi w -> same_ids ids w -> agree k w -> proper ids [o] -> step d w o = (w', r) -> r <> Crash ->
  same_ids (next_ids ids o) w' /\ agree (learn k o r) w'.
Proof.
  intros d lo hi w o w' r ids k OK SI AG PR E NC. unfold same_ids, agree in *. assert (N : NoDup (map fst (w_views w))) by apply OK.
  destruct o as [id req pooled ctx|id|id|id]; cbn [step next_ids proper] in *.
  - destruct PR as (NI & _). injection E as <- <-. assert (NI2 : ~ In id (map fst (w_views w))) by (rewrite <- SI; auto). cbn [w_views]. unfold assign. split.
    + intros i. cbn [w_views]. rewrite (erase_id _ _ _ NI2). cbn. rewrite SI. tauto.
    + intros i q p. cbn [learn w_views]. rewrite (erase_id _ _ _ NI2). cbn [In]. rewrite AG. split.
      * intros [H|(v & H & R)]; [injection H as <- <- <-; eexists; split; [left; reflexivity|auto]|exists v; auto].
      * intros (v & [H|H] & E1 & E2); [injection H as <- <-; cbn in *; subst; auto|right; eauto].
  - destruct PR as (II & _). destruct (find_view _ _ _ N SI II) as (v & F & IV). rewrite F in E. apply access_shape in E as [E|[(E & S0)|(VP & v' & E & R & S0)]]; [congruence| |].
    + split; [intros i; rewrite E; apply SI|]. intros i q p. rewrite E. destruct S0 as [(-> & VP)|(p0 & VP & ->)]; [apply AG|]. cbn [learn]. rewrite <- AG. split.
      * intros H. apply in_map_iff in H as ((j & (q2 & p2)) & EQ & H). cbn in EQ. destruct (Nat.eqb_spec j id) as [-> |NE]; [|congruence].
        apply AG in H as (v2 & H & R1 & R2). assert (v2 = v) by (apply (in_find _ _ _ _ N) in H; congruence). subst v2. injection EQ as <- <- <-. apply AG. exists v. auto.
      * intros H. apply in_map_iff. exists (i, (q, p)). split; auto. cbn. destruct (Nat.eqb_spec i id) as [-> |NE]; auto. apply AG in H as (v2 & H & R1 & R2).
        assert (v2 = v) by (apply (in_find _ _ _ _ N) in H; congruence). subst v2. congruence.
    + assert (IV2 : In id (map fst (w_views w))) by (apply in_map_iff; exists (id, v); auto). split; [intros i; rewrite E; rewrite assign_keys by auto; apply SI|].
      intros i q p. rewrite E. rewrite (agree_set k w id v v' N IV AG R). destruct S0 as [(-> & VP')|(p0 & -> & VP')]; cbn [learn]; rewrite VP'.
      * split.
        -- intros H. destruct (Nat.eq_dec i id) as [-> |NE]; auto. left. split; auto. apply AG in H as (v2 & H & R1 & R2). assert (v2 = v) by (apply (in_find _ _ _ _ N) in H; congruence). subst v2. split; congruence.
        -- intros [(-> & -> & ->)|(NE & H)]; auto. apply AG. eauto.
      * split.
        -- intros H. apply in_map_iff in H as ((j & (q2 & p2)) & EQ & H). cbn in EQ. destruct (Nat.eqb_spec j id) as [-> |NE].
           ++ apply AG in H as (v2 & H & R1 & R2). assert (v2 = v) by (apply (in_find _ _ _ _ N) in H; congruence). subst v2. injection EQ as <- <- <-. left. auto.
           ++ injection EQ as <- <- <-. right. auto.
        -- intros [(-> & -> & ->)|(NE & H)]; apply in_map_iff.
           ++ exists (id, (v_req v, None)). cbn. rewrite Nat.eqb_refl. split; auto. apply AG. eauto.
           ++ exists (i, (q, p)). cbn. destruct (Nat.eqb_spec i id); [congruence|]. auto.
  - destruct (find_key id (w_views w)); injection E as <- <-; split; auto.
  - destruct PR as (II & _). destruct (find_view _ _ _ N SI II) as (v & F & IV). rewrite F in E. apply delete_shape in E as [E|(-> & E)]; [congruence|]. split.
    + intros i. rewrite E. split.
      * intros H. apply in_remove in H as (H & NE). apply SI in H. apply in_map_iff in H as (e & <- & H). apply in_map. apply erase_in. auto.
      * intros H. apply in_map_iff in H as (e & <- & H). apply erase_in in H as (H & NE). apply in_in_remove; auto. apply SI. apply in_map. auto.
    + intros i q p. rewrite E. cbn [learn]. rewrite filter_In, AG. cbn [fst]. rewrite negb_true_iff, Nat.eqb_neq. split.
      * intros ((v2 & H & R) & NE). exists v2. split; auto. apply erase_in. auto.
      * intros (v2 & H & R). apply erase_in in H as (H & NE). split; eauto.
Qed.
Lemma run_ok : forall d lo hi os w w' rs ids k, driver_ok d -> world_ok lo hi w -> same_ids ids w -> agree k w -> proper ids os -> run d w os = (w', rs) ->
  world_ok lo hi w' /\ ~ In Crash rs /\ agree (held k os rs) w'.
Proof.
  induction os as [|o os IH]; intros w w' rs ids k D OK SI AG PR E; cbn [run] in E.
  - injection E as <- <-. split; auto.
  - apply proper_cons in PR as (P1 & P2). destruct (step d w o) as (w1 & r) eqn:ST. destruct (run d w1 os) as (w2 & rs') eqn:RU. injection E as <- <-.
    destruct (step_ok d lo hi w o w1 r ids D OK SI P1 ST) as (OK1 & NC). destruct (step_agree d lo hi w o w1 r ids k OK SI AG P1 ST NC) as (SI1 & AG1).
    destruct (IH w1 w2 rs' _ _ D OK1 SI1 AG1 P2 RU) as (A & B & C). split; auto. split; auto. intros [H|H]; auto.
Qed.
Lemma start_facts : forall lo hi w, start lo hi w -> world_ok lo hi w /\ same_ids [] w /\ agree [] w.
Proof.
  intros lo hi w H. split; [apply start_ok; auto|]. destruct H as (p & _ & ->). split; [intros i; cbn; tauto|]. intros i q p0. cbn. split; [intros []|intros (v & [] & _)].
Qed.
Lemma history_ok : forall d lo hi w os w' rs, driver_ok d -> start lo hi w -> proper [] os -> run d w os = (w', rs) ->
  world_ok lo hi w' /\ ~ In Crash rs /\ agree (held [] os rs) w'.
Proof. intros d lo hi w os w' rs D S0 P E. destruct (start_facts _ _ _ S0) as (A & B & C). eapply run_ok; eauto. Qed.

(** ** Where views are *)
Lemma view_place : forall lo hi w i v p, world_ok lo hi w -> In (i, v) (w_views w) -> v_ptr v = Some p ->
  exists h, In h (w_hunks w) /\ fst h <= p /\ p + v_size v <= fst h + snd h.
Proof.
  intros lo hi w i v p (W1 & W2 & W3 & W4 & W5 & W6 & W7) H VP. destruct (in_pool (2 ^ hi) v) eqn:IP.
  - destruct (W6 i v H) as (_ & _ & W). destruct (W p VP IP) as (b & IB & CB & UB). destruct W1 as (_ & _ & _ & _ & _ & (A1 & _)). rewrite Forall_forall in A1.
    destruct (used_inside _ _ _ (A1 b IB) UB) as (base & j & M & _ & _ & L1 & L2). exists (base, 2 ^ hi). split; [|cbn; rewrite CB in L2; lia].
    eapply Permutation_in; [symmetry; exact W4|]. apply in_or_app. left. apply in_flat_map. exists b. split; auto. unfold hunk_of. rewrite M. left. auto.
  - exists (p, v_size v). split; [|cbn; lia]. eapply Permutation_in; [symmetry; exact W4|]. apply in_or_app. right. apply in_flat_map. exists (i, v). split; auto. unfold direct. cbn [snd]. rewrite VP, IP. left. auto.
Qed.
Lemma views_apart : forall lo hi w i v p j u q, world_ok lo hi w -> In (i, v) (w_views w) -> In (j, u) (w_views w) -> i <> j -> v_ptr v = Some p -> v_ptr u = Some q ->
  apart (p, v_size v) (q, v_size u).
Proof.
  intros lo hi w i v p j u q (W1 & W2 & W3 & W4 & W5 & W6 & W7) H1 H2 NE V1 V2.
  assert (NE2 : (i, v) <> (j, u)) by congruence. destruct (two_perm _ _ _ _ NE2 H1 H2) as (rest & PV).
  pose proof (pairwise_perm _ _ W4 W2) as PW. apply pairwise_app in PW as (PW1 & PW2 & PW3).
  assert (POOL : forall i0 x y, In (i0, x) (w_views w) -> v_ptr x = Some y -> in_pool (2 ^ hi) x = true ->
     exists b base ix, In b (all_bulks (w_pool w)) /\ b_mem b = Some base /\ b_chunk b = v_size x /\ y = base + b_chunk b * ix /\ base <= y /\ y + v_size x <= base + 2 ^ hi /\ In (y, ix) (b_used b)).
  { intros i0 x y HX VX IX. destruct (W6 i0 x HX) as (_ & _ & W). destruct (W y VX IX) as (b & IB & CB & UB). destruct W1 as (_ & _ & _ & _ & _ & (A1 & _)). rewrite Forall_forall in A1.
    destruct (used_inside _ _ _ (A1 b IB) UB) as (base & ix & M & EY & UY & L1 & L2). exists b, base, ix. rewrite CB in L2. auto 8. }
  assert (HB : forall b base, In b (all_bulks (w_pool w)) -> b_mem b = Some base -> In (base, 2 ^ hi) (hunks_of (2 ^ hi) (all_bulks (w_pool w)))).
  { intros b base IB M. apply in_flat_map. exists b. split; auto. unfold hunk_of. rewrite M. left. auto. }
  assert (HD : forall i0 x y, In (i0, x) (w_views w) -> v_ptr x = Some y -> in_pool (2 ^ hi) x = false -> In (y, v_size x) (flat_map (direct (2 ^ hi)) (w_views w))).
  { intros i0 x y HX VX IX. apply in_flat_map. exists (i0, x). split; auto. unfold direct. cbn [snd]. rewrite VX, IX. left. auto. }
  destruct (in_pool (2 ^ hi) v) eqn:I1; destruct (in_pool (2 ^ hi) u) eqn:I2.
  - destruct (POOL _ _ _ H1 V1 I1) as (b1 & base1 & x1 & B1 & M1 & C1 & E1 & L1 & G1 & U1). destruct (POOL _ _ _ H2 V2 I2) as (b2 & base2 & x2 & B2 & M2 & C2 & E2 & L2 & G2 & U2).
    assert (PQ : p <> q).
    { pose proof (Permutation_NoDup (Permutation_flat_map (pooled_ptr (2 ^ hi)) PV) W7) as ND. cbn [flat_map] in ND. unfold pooled_ptr at 1 2 in ND. cbn [snd] in ND. rewrite V1, V2, I1, I2 in ND. cbn in ND. inversion ND as [|? ? N1 _]. intros ->. apply N1. left. auto. }
    destruct (Nat.eq_dec (b_id b1) (b_id b2)) as [EI|EI].
    + assert (b1 = b2).
      { destruct W1 as (_ & _ & _ & _ & _ & (_ & A2 & _)). clear - A2 B1 B2 EI. induction (all_bulks (w_pool w)) as [|x l IH]; [destruct B1|]. cbn in A2. inversion A2 as [|? ? N1 N2]; subst.
        destruct B1 as [-> |B1]; destruct B2 as [-> |B2]; auto; exfalso; apply N1; [rewrite EI|rewrite <- EI]; apply in_map; auto. }
      subst b2. assert (base2 = base1) by congruence. subst base2. rewrite <- C1, <- C2. assert (x1 <> x2) by congruence. unfold apart. cbn. subst p q.
      destruct (Nat.lt_ge_cases x1 x2); [left|right].
      * assert (b_chunk b1 * S x1 <= b_chunk b1 * x2) by (apply Nat.mul_le_mono_l; lia). lia.
      * assert (b_chunk b1 * S x2 <= b_chunk b1 * x1) by (apply Nat.mul_le_mono_l; lia). lia.
    + assert (b1 <> b2) by congruence. destruct (two_perm _ _ _ _ H B1 B2) as (rb & PB). pose proof (pairwise_perm _ _ (hunks_perm (2 ^ hi) _ _ PB) PW1) as PW4.
      unfold hunks_of in PW4. cbn [flat_map] in PW4. unfold hunk_of at 1 2 in PW4. rewrite M1, M2 in PW4. cbn [app] in PW4. apply pairwise_cons in PW4 as (F & _). inversion F; subst. unfold apart in *. cbn in *. lia.
  - destruct (POOL _ _ _ H1 V1 I1) as (b1 & base1 & x1 & B1 & M1 & C1 & E1 & L1 & G1 & U1). pose proof (PW3 _ _ (HB _ _ B1 M1) (HD _ _ _ H2 V2 I2)) as A. unfold apart in *. cbn in *. lia.
  - destruct (POOL _ _ _ H2 V2 I2) as (b1 & base1 & x1 & B1 & M1 & C1 & E1 & L1 & G1 & U1). pose proof (PW3 _ _ (HB _ _ B1 M1) (HD _ _ _ H1 V1 I1)) as A. unfold apart in *. cbn in *. lia.
  - pose proof (pairwise_perm _ _ (Permutation_flat_map (direct (2 ^ hi)) PV) PW2) as PW4. cbn [flat_map] in PW4. unfold direct at 1 2 in PW4. cbn [snd] in PW4. rewrite V1, V2, I1, I2 in PW4. cbn [app] in PW4.
    apply pairwise_cons in PW4 as (F & _). inversion F; subst. auto.
Qed.

(** ** Release of everything *)
Lemma destroy_bulks : forall total B hs, NoDup (map fst hs) -> Permutation hs (hunks_of total B) ->
  fold_left (fun hs b => match b_mem b with Some base => free_hunk base hs | None => hs end) B hs = [].
Proof.
  induction B as [|b B IH]; intros hs N P; cbn [fold_left].
  - cbn in P. apply Permutation_sym, Permutation_nil in P. auto.
  - unfold hunks_of in P. cbn [flat_map] in P. unfold hunk_of at 1 in P. destruct (b_mem b) as [base|]; [|apply IH; auto]. cbn [app] in P.
    assert (I0 : In (base, total) hs) by (eapply Permutation_in; [symmetry; exact P|left; auto]). pose proof (erase_perm _ _ _ _ N I0) as PE.
    apply IH; [apply erase_nodup; auto|]. apply Permutation_cons_inv with (a := (base, total)). unfold free_hunk. rewrite <- PE. auto.
Qed.
Lemma hunks_nodup : forall hs, pairwise hs -> Forall (fun h => 0 < snd h) hs -> NoDup (map fst hs).
Proof.
  induction hs as [|h l IHl]; intros W2 W3; cbn; [constructor|]. apply pairwise_cons in W2 as (P1 & P2). inversion W3 as [|? ? Z1 Z2]; subst. constructor; auto.
  intros X. apply in_map_iff in X as (h2 & EX & X). rewrite Forall_forall in P1, Z2. specialize (P1 _ X). specialize (Z2 _ X). unfold apart in P1. lia.
Qed.
Lemma destroy_ok : forall lo hi w, world_ok lo hi w -> w_views w = [] -> destroy w = [].
Proof.
  intros lo hi w (W1 & W2 & W3 & W4 & _) E. rewrite E in W4. cbn in W4. rewrite app_nil_r in W4. eapply destroy_bulks; [apply hunks_nodup; auto|exact W4].
Qed.

(** ** The same pointer *)
Lemma run_app : forall d os os' w, run d w (os ++ os') = let (w1, rs) := run d w os in let (w2, rs') := run d w1 os' in (w2, rs ++ rs').
Proof.
  induction os as [|o os IH]; intros os' w; cbn [app run]; [destruct (run d w os'); auto|]. destruct (step d w o) as (w1 & r). rewrite IH. destruct (run d w1 os) as (w2 & rs). destruct (run d w2 os'). auto.
Qed.
Lemma proper_app : forall os os' ids, proper ids (os ++ os') -> proper ids os /\ proper (fold_left next_ids os ids) os'.
Proof.
  induction os as [|o os IH]; intros os' ids H; cbn [app] in *; [split; [exact Logic.I|auto]|]. apply proper_cons in H as (A & B). apply IH in B as (B & C). split; [apply proper_cons; auto|]. auto.
Qed.
Lemma step_ptr : forall d w o w' r i v p, NoDup (map fst (w_views w)) -> step d w o = (w', r) -> r <> Crash -> In (i, v) (w_views w) -> v_ptr v = Some p -> o <> Delete i -> (forall a b c, o <> New i a b c) ->
  exists v', In (i, v') (w_views w') /\ v_ptr v' = Some p.
Proof.
  intros d w o w' r i v p N E NC H VP ND NN. destruct o as [id req pooled ctx|id|id|id]; cbn [step] in E.
  - injection E as <- <-. exists v. split; auto. cbn. right. apply erase_in. split; auto. cbn. intros ->. eapply NN. reflexivity.
  - destruct (find_key id (w_views w)) as [u|] eqn:F; [|injection E as <- <-; congruence]. apply access_shape in E as [E|[(E & S0)|(UP & v' & E & R & S0)]]; [congruence|rewrite E; eauto|].
    rewrite E. exists v. split; auto. right. apply erase_in. split; auto. cbn. intros ->. apply (in_find _ _ _ _ N) in H. congruence.
  - destruct (find_key id (w_views w)); injection E as <- <-; eauto.
  - destruct (find_key id (w_views w)) as [u|] eqn:F; [|injection E as <- <-; congruence]. apply delete_shape in E as [E|(-> & E)]; [congruence|]. rewrite E. exists v. split; auto. apply erase_in. split; [auto|cbn; congruence].
Qed.
Lemma run_ptr : forall d lo hi os w w' rs ids i v p, driver_ok d -> world_ok lo hi w -> same_ids ids w -> proper ids os -> run d w os = (w', rs) -> In (i, v) (w_views w) -> v_ptr v = Some p -> ~ In (Delete i) os ->
  exists v', In (i, v') (w_views w') /\ v_ptr v' = Some p.
Proof.
  induction os as [|o os IH]; intros w w' rs ids i v p D OK SI PR E H VP ND; cbn [run] in E.
  - injection E as <- <-. eauto.
  - apply proper_cons in PR as (P1 & P2). destruct (step d w o) as (w1 & r) eqn:ST. destruct (run d w1 os) as (w2 & rs') eqn:RU. injection E as <- <-.
    destruct (step_ok d lo hi w o w1 r ids D OK SI P1 ST) as (OK1 & NC).
    assert (AG : exists k, agree k w).
    { exists (map (fun e => (fst e, (v_req (snd e), v_ptr (snd e)))) (w_views w)). intros a b c. rewrite in_map_iff. split.
      - intros ((x & y) & EE & X). cbn in EE. injection EE as <- <- <-. eauto.
      - intros (y & X & <- & <-). exists (a, y). auto. }
    destruct AG as (k & AG). destruct (step_agree d lo hi w o w1 r ids k OK SI AG P1 ST NC) as (SI1 & _).
    assert (NN : forall a b c, o <> New i a b c).
    { intros a b c ->. cbn in P1. destruct P1 as (P1 & _). apply P1. apply SI. apply in_map_iff. exists (i, v). auto. }
    destruct (step_ptr d w o w1 r i v p) as (v' & H' & VP'); auto; [apply OK|intros ->; apply ND; left; auto|]. eapply IH; eauto. intros X. apply ND. right. auto.
Qed.
Lemma ids_ok : forall d lo hi os w w' rs ids, driver_ok d -> world_ok lo hi w -> same_ids ids w -> proper ids os -> run d w os = (w', rs) -> same_ids (fold_left next_ids os ids) w'.
Proof.
  induction os as [|o os IH]; intros w w' rs ids D OK SI PR E; cbn [run fold_left] in *.
  - injection E as <- <-. auto.
  - apply proper_cons in PR as (P1 & P2). destruct (step d w o) as (w1 & r) eqn:ST. destruct (run d w1 os) as (w2 & rs') eqn:RU. injection E as <- <-.
    destruct (step_ok d lo hi w o w1 r ids D OK SI P1 ST) as (OK1 & NC).
    assert (AG : exists k, agree k w).
    { exists (map (fun e => (fst e, (v_req (snd e), v_ptr (snd e)))) (w_views w)). intros a b c. rewrite in_map_iff. split.
      - intros ((x & y) & EE & X). cbn in EE. injection EE as <- <- <-. eauto.
      - intros (y & X & <- & <-). exists (a, y). auto. }
    destruct AG as (k & AG). destruct (step_agree d lo hi w o w1 r ids k OK SI AG P1 ST NC) as (SI1 & _). eapply IH; eauto.
Qed.

(** ** Only the driver refuses *)
Lemma alloc_fail : forall d a p t hs p' t' hs', pool_alloc d a p t hs = (p', t', hs', Fail) -> exists t0 hs0, d t0 hs0 (max_chunk p) = None.
Proof.
  intros d a p t hs p' t' hs' H. unfold pool_alloc in H.
  assert (A : forall b t1 hs1 t2 hs2, alloc_in d (max_chunk p) b t1 hs1 = (t2, hs2, Fail) -> exists t0 hs0, d t0 hs0 (max_chunk p) = None).
  { intros b t1 hs1 t2 hs2 E. unfold alloc_in, ask, take_chunk in E. destruct (b_mem b); [destruct (b_free b); [destruct (b_init b <? b_num b)|]; discriminate|].
    destruct (d t1 hs1 (max_chunk p)) eqn:DD; [|eauto]. destruct (b_free b); [destruct (b_init b <? b_num b)|]; discriminate. }
  destruct (find_key a (p_lists p)) as [[|b l]|]; [discriminate| |discriminate]. destruct (rotate (length (b :: l)) (b :: l)) as ([|x r] & []).
  all: match goal with H : context [alloc_in ?dd ?m ?b ?t ?h] |- _ => destruct (alloc_in dd m b t h) as ((t3 & h3) & [[]| |]) eqn:AI end; try discriminate; eapply A; eauto.
Qed.
Lemma no_throw : forall d os w w' rs, (forall t hs size, 0 < size -> d t hs size <> None) -> (forall id v, In (id, v) (w_views w) -> 0 < v_size v) -> (forall id req a b, In (New id req a b) os -> 0 < req) ->
  run d w os = (w', rs) -> ~ In Throw rs.
Proof.
  induction os as [|o os IH]; intros w w' rs D V Q E; cbn [run] in E; [injection E as <- <-; auto|].
  destruct (step d w o) as (w1 & r) eqn:ST. destruct (run d w1 os) as (w2 & rs') eqn:RU. injection E as <- <-.
  assert (X : r <> Throw /\ forall id v, In (id, v) (w_views w1) -> 0 < v_size v).
  { destruct o as [id req pooled ctx|id|id|id]; cbn [step] in ST.
    - injection ST as <- <-. split; [discriminate|]. intros i v [H|H]; [injection H as <- <-; cbn; eapply Q; left; reflexivity|apply erase_in in H as (H & _); eauto].
    - destruct (find_key id (w_views w)) as [v|] eqn:F; [|injection ST as <- <-; split; [discriminate|auto]]. apply find_in in F. pose proof (V _ _ F) as VS.
      unfold access in ST. destruct (v_ptr v); [injection ST as <- <-; split; [discriminate|auto]|]. destruct (v_pool v && negb (v_ctx v)); [injection ST as <- <-; split; [discriminate|auto]|].
      destruct (v_pool v && (v_size v <=? max_chunk (w_pool w))).
      + assert (P0 : 0 < Nat.max (round_up_pow2 (v_req v)) (min_chunk (w_pool w))) by (pose proof (pow2_pos' (p_min (w_pool w))); unfold min_chunk; lia).
        destruct (pool_alloc _ _ _ _ _) as (((p' & t') & hs') & [ptr| |]) eqn:PA; injection ST as <- <-.
        * split; [discriminate|]. intros i x [H|H]; [injection H as <- <-; auto|apply erase_in in H as (H & _); eauto].
        * apply alloc_fail in PA as (t0 & hs0 & PA). exfalso. eapply D; [|exact PA]. apply pow2_pos'.
        * split; [discriminate|auto].
      + unfold ask in ST. destruct (d (w_time w) (w_hunks w) (v_size v)) eqn:DD; [|exfalso; eapply D; [|exact DD]; auto]. injection ST as <- <-. split; [discriminate|]. intros i x [H|H]; [injection H as <- <-; auto|apply erase_in in H as (H & _); eauto].
    - destruct (find_key id (w_views w)); injection ST as <- <-; split; auto; discriminate.
    - destruct (find_key id (w_views w)) as [v|] eqn:F; [|injection ST as <- <-; split; [discriminate|auto]]. unfold delete in ST.
      assert (KE : forall i x, In (i, x) (erase id (w_views w)) -> 0 < v_size x) by (intros i x H; apply erase_in in H as (H & _); eauto).
      destruct (v_ptr v); [|injection ST as <- <-; split; [discriminate|auto]]. destruct (v_pool v && negb (v_ctx v)); [injection ST as <- <-; split; [discriminate|auto]|].
      destruct (v_pool v && (v_size v <=? max_chunk (w_pool w))); [|injection ST as <- <-; split; [discriminate|auto]]. destruct (pool_free _ _); injection ST as <- <-; (split; [discriminate|auto]). }
  destruct X as (X1 & X2). intros [H|H]; [congruence|]. eapply IH; [exact D|exact X2|intros; eapply Q; right; eauto|exact RU|exact H].
Qed.
