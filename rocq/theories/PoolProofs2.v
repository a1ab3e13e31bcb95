(** Proofs about the memory pool (C67): pools. *)
From Coq Require Import List Bool Arith Lia Permutation.
Import ListNotations.
From Verif Require Import PoolModel PoolSpec PoolProofs.

(** ** Pairwise apart *)
Lemma apart_sym : forall a b, apart a b -> apart b a.
Proof. unfold apart. intros a b []; auto. Qed.
Definition pairwise (l : list (nat * nat)) : Prop := ForallOrdPairs apart l.
Lemma pairwise_perm : forall l l', Permutation l l' -> pairwise l -> pairwise l'.
Proof.
  unfold pairwise. induction 1; intros F; auto.
  - inversion F; subst. constructor; auto. eapply Permutation_Forall; eauto.
  - inversion F as [|? ? F1 F2]; subst. inversion F2 as [|? ? F3 F4]; subst. inversion F1; subst. constructor; [constructor; auto; apply apart_sym; auto|]. constructor; auto.
Qed.
Lemma pairwise_cons : forall a l, pairwise (a :: l) <-> Forall (apart a) l /\ pairwise l.
Proof. unfold pairwise. split; [intros H; inversion H; auto|intros (A & B); constructor; auto]. Qed.
Lemma pairwise_app : forall l l', pairwise (l ++ l') <-> pairwise l /\ pairwise l' /\ forall a b, In a l -> In b l' -> apart a b.
Proof.
  induction l as [|x l IH]; intros l'; cbn [app].
  - split; [intros H; split; [constructor|]; split; auto; intros a b []|tauto].
  - rewrite !pairwise_cons, IH, Forall_app. rewrite !Forall_forall. split.
    + intros ((A & B) & C & D & E). split; [split; auto|]. split; auto. intros a b [<- |H] I0; auto.
    + intros ((A & B) & C & D). split; [split; auto; intros y Y; apply D; [left|]; auto|]. split; auto. split; auto. intros a b H I0. apply D; auto. right. auto.
Qed.
Lemma two_perm : forall A (x y : A) l, x <> y -> In x l -> In y l -> exists rest, Permutation l (x :: y :: rest).
Proof.
  intros A x y l N X Y. apply in_split in X as (l1 & l2 & ->). assert (In y (l1 ++ l2)) by (apply in_app_or in Y; apply in_or_app; destruct Y as [Y|[Y|Y]]; auto; congruence).
  apply in_split in H as (l3 & l4 & E). exists (l3 ++ l4). rewrite <- Permutation_middle. constructor. rewrite E. rewrite <- Permutation_middle. auto.
Qed.

(** ** Lists of bulks *)
Definition hunk_of (total : nat) (b : bulk) : list (nat * nat) := match b_mem b with Some base => [(base, total)] | None => [] end.
Definition hunks_of (total : nat) (B : list bulk) : list (nat * nat) := flat_map (hunk_of total) B.
Lemma hunks_perm : forall total B B', Permutation B B' -> Permutation (hunks_of total B) (hunks_of total B').
Proof. intros. apply Permutation_flat_map. auto. Qed.
Definition pinv (total next : nat) (B : list bulk) (alloc : list (nat * nat)) : Prop :=
  Forall (bulk_ok total) B /\ NoDup (map b_id B) /\ Forall (fun b => b_id b < next) B /\ NoDup (map fst alloc) /\
  (forall ptr id, In (ptr, id) alloc <-> exists b, In b B /\ b_id b = id /\ In ptr (map fst (b_used b))).
Lemma pinv_perm : forall total next B B' alloc, Permutation B B' -> pinv total next B alloc -> pinv total next B' alloc.
Proof.
  intros total next B B' alloc P (A1 & A2 & A3 & A4 & A5). split; [eapply Permutation_Forall; eauto|]. split; [eapply Permutation_NoDup; [apply Permutation_map; eauto|auto]|].
  split; [eapply Permutation_Forall; eauto|]. split; auto. intros ptr id. rewrite A5. split; intros (b & I0 & R); exists b; split; auto; (eapply Permutation_in; [|exact I0]; auto using Permutation_sym).
Qed.
Lemma pinv_new : forall total next B alloc id a hi, total = 2 ^ hi -> a <= hi -> id = next -> pinv total next B alloc ->
  pinv total (S next) (new_bulk id (2 ^ a) total :: B) alloc.
Proof.
  intros total next B alloc id a hi -> L -> (A1 & A2 & A3 & A4 & A5). split; [constructor; auto; apply new_bulk_ok; auto|].
  split; [cbn; constructor; auto; intros H; apply in_map_iff in H as (b & E & H); rewrite Forall_forall in A3; apply A3 in H; lia|].
  split; [constructor; [cbn; lia|eapply Forall_impl; [|exact A3]; cbn; lia]|]. split; auto.
  intros ptr id. rewrite A5. split.
  - intros (b & I0 & R). exists b. split; auto. right. auto.
  - intros (b & [<- |I0] & E & R); [destruct R|eauto].
Qed.
Lemma used_inside : forall total b ptr, bulk_ok total b -> In ptr (map fst (b_used b)) ->
  exists base i, b_mem b = Some base /\ ptr = base + b_chunk b * i /\ In (ptr, i) (b_used b) /\ base <= ptr /\ ptr + b_chunk b <= base + total.
Proof.
  intros total b ptr (C & N & T & M & L & D & U & F & P) H. apply in_map_iff in H as ((p & i) & E & H). cbn in E. subst p.
  destruct (P _ _ H) as (base & E & ->). exists base, i. split; auto. split; auto. split; auto. split; [lia|].
  assert (i < b_init b) by (apply U; apply in_or_app; right; apply (in_map snd) in H; auto). assert (b_chunk b * S i <= b_chunk b * b_num b) by (apply Nat.mul_le_mono_l; lia). lia.
Qed.
Lemma pinv_take : forall total next b b' rest alloc base ptr i, 0 < total -> pinv total next (b :: rest) alloc -> pairwise (hunks_of total (b' :: rest)) ->
  bulk_ok total b' -> b_id b' = b_id b -> b_mem b' = Some base -> b_chunk b' = b_chunk b -> b_used b' = (ptr, i) :: b_used b -> ptr = base + b_chunk b * i -> i < b_num b ->
  ~ In ptr (map fst (b_used b)) ->
  ~ In ptr (map fst alloc) /\ pinv total next (b' :: rest) (assign ptr (b_id b) alloc).
Proof.
  intros total next b b' rest alloc base ptr i T0 (A1 & A2 & A3 & A4 & A5) PW OK ID MEM CH US PT IL NU.
  assert (IB : In ptr (map fst (b_used b'))) by (rewrite US; left; auto).
  destruct (used_inside _ _ _ OK IB) as (base1 & i1 & M1 & _ & _ & L1 & L2). assert (base1 = base) by congruence. subst base1.
  assert (C0 : 0 < b_chunk b') by apply OK.
  assert (FR : ~ In ptr (map fst alloc)).
  { intros H. apply in_map_iff in H as ((p & id) & E & H). cbn in E. subst p. apply A5 in H as (b2 & [<- |I2] & E2 & U2); auto.
    inversion A1 as [|? ? _ A1']; subst. rewrite Forall_forall in A1'. destruct (used_inside _ _ _ (A1' b2 I2) U2) as (base2 & i2 & M2 & _ & _ & L3 & L4).
    unfold hunks_of in PW. cbn [flat_map] in PW. apply pairwise_app in PW as (_ & _ & PW). specialize (PW (base, total) (base2, total)).
    assert (apart (base, total) (base2, total)).
    { apply PW; [unfold hunk_of; rewrite MEM; left; auto|apply in_flat_map; exists b2; split; auto; unfold hunk_of; rewrite M2; left; auto]. }
    assert (0 < b_chunk b2) by (apply (A1' b2 I2)). unfold apart in H. cbn in H. lia. }
  split; auto. inversion A1; subst. inversion A3; subst. split; [constructor; auto|]. split; [cbn [map] in *; rewrite ID; auto|]. split; [constructor; auto; rewrite ID; auto|].
  unfold assign. rewrite (erase_id _ _ _ FR). split; [cbn; constructor; auto|]. intros p id. cbn [In]. rewrite A5. split.
  - intros [H|(b2 & [<- |I2] & E2 & U2)].
    + injection H as <- <-. exists b'. split; [left; auto|]. split; auto.
    + exists b'. split; [left; auto|]. split; [congruence|]. rewrite US. right. auto.
    + exists b2. split; [right; auto|]. auto.
  - intros (b2 & [<- |I2] & E2 & U2).
    + rewrite US in U2. destruct U2 as [U2|U2]; [left; cbn in U2; subst; congruence|]. right. exists b. split; [left; auto|]. split; [congruence|auto].
    + right. exists b2. split; [right; auto|]. auto.
Qed.
Lemma pinv_free : forall total next b b' rest alloc ptr, pinv total next (b :: rest) alloc -> In ptr (map fst (b_used b)) ->
  bulk_ok total b' -> b_id b' = b_id b -> b_used b' = erase ptr (b_used b) -> pinv total next (b' :: rest) (erase ptr alloc).
Proof.
  intros total next b b' rest alloc ptr (A1 & A2 & A3 & A4 & A5) IU OK ID US. inversion A1; subst. inversion A3; subst.
  split; [constructor; auto|]. split; [cbn [map] in *; rewrite ID; auto|]. split; [constructor; auto; rewrite ID; auto|]. split; [apply erase_nodup; auto|].
  assert (PA : In (ptr, b_id b) alloc) by (apply A5; exists b; split; [left; auto|auto]).
  intros p id. rewrite erase_in, A5. cbn [fst]. split.
  - intros ((b2 & [<- |I2] & E2 & U2) & NE).
    + exists b'. split; [left; auto|]. split; [congruence|]. rewrite US. apply in_map_iff in U2 as (e & E & U2). apply in_map_iff. exists e. split; auto. apply erase_in. split; auto. congruence.
    + exists b2. split; [right; auto|]. auto.
  - intros (b2 & [<- |I2] & E2 & U2).
    + rewrite US in U2. apply in_map_iff in U2 as (e & E & U2). apply erase_in in U2 as (U2 & NE). split; [|congruence]. exists b. split; [left; auto|]. split; [congruence|]. apply in_map_iff. eauto.
    + split; [exists b2; split; [right; auto|auto]|]. intros ->. assert (In (ptr, id) alloc) by (apply A5; exists b2; split; [right; auto|auto]).
      assert (id = b_id b) by (pose proof (in_find _ _ _ _ A4 H); pose proof (in_find _ _ _ _ A4 PA); congruence). rewrite H0 in E2.
      cbn [map] in A2. inversion A2 as [|? ? N1 N2]; subst. apply N1. rewrite <- E2. apply in_map. auto.
Qed.

(** ** Lists by size *)
Lemma set_list_ok : forall size ls l, NoDup (map fst ls) -> find_key size ls = Some l ->
  exists rest, Permutation (flat_map snd ls) (l ++ rest) /\ (forall l', Permutation (flat_map snd (set_list size l' ls)) (l' ++ rest)).
Proof.
  induction ls as [|[k m] ls IH]; intros l N H; [discriminate|]. cbn in H. inversion N as [|? ? N1 N2]; subst.
  destruct (Nat.eqb_spec size k) as [-> |NE].
  - injection H as ->. exists (flat_map snd ls). split; auto. intros l'. cbn. rewrite Nat.eqb_refl. cbn [snd]. apply Permutation_app_head.
    match goal with |- Permutation _ (flat_map snd ?m) => replace m with ls; auto end || (match goal with |- Permutation (flat_map snd ?m) _ => replace m with ls; auto end). clear - N1. induction ls as [|[k2 m2] ls IH]; cbn; auto. cbn in N1. destruct (Nat.eqb_spec k2 k) as [-> |E]; [exfalso; auto|]. f_equal. auto.
  - destruct (IH l N2 H) as (rest & P1 & P2). exists (m ++ rest). split.
    + cbn. rewrite P1. rewrite !app_assoc. apply Permutation_app_tail. apply Permutation_app_comm.
    + intros l'. cbn. destruct (Nat.eqb_spec k size); [congruence|]. cbn [snd]. change (map _ ls) with (set_list size l' ls). rewrite P2. rewrite !app_assoc. apply Permutation_app_tail. apply Permutation_app_comm.
Qed.
Lemma set_list_in : forall size l ls k m, In (k, m) (set_list size l ls) -> (k = size /\ m = l) \/ In (k, m) ls.
Proof.
  intros size l ls k m H. unfold set_list in H. apply in_map_iff in H as ((k2 & m2) & E & H). cbn in E. destruct (Nat.eqb_spec k2 size); [left; injection E as <- <-; auto|right; congruence].
Qed.
Lemma set_list_keys : forall size l ls, map fst (set_list size l ls) = map fst ls.
Proof. intros. unfold set_list. rewrite map_map. apply map_ext. intros (k & m). cbn. destruct (Nat.eqb_spec k size); cbn; auto. Qed.
Lemma rotate_ok : forall n l l' f, rotate n l = (l', f) -> Permutation l l' /\ (f = true -> exists b r, l' = b :: r /\ full b = false).
Proof.
  induction n as [|n IH]; intros l l' f H; cbn in H.
  - injection H as <- <-. split; auto. discriminate.
  - destruct l as [|b r]; [injection H as <- <-; split; auto; discriminate|]. destruct (full b) eqn:F.
    + apply IH in H as (P & Q). split; auto. rewrite <- P. apply Permutation_cons_append.
    + injection H as <- <-. split; eauto.
Qed.

Definition pool_ok (lo hi : nat) (p : pool) : Prop :=
  lo <= hi /\ p_min p = lo /\ p_max p = hi /\ map fst (p_lists p) = map (fun i => 2 ^ i) (seq lo (S hi - lo)) /\
  (forall k l, In (k, l) (p_lists p) -> l <> [] /\ forall b, In b l -> b_chunk b = k) /\ pinv (2 ^ hi) (p_next p) (all_bulks p) (p_alloc p).
Lemma keys_nodup : forall lo hi p, pool_ok lo hi p -> NoDup (map fst (p_lists p)).
Proof.
  intros lo hi p (_ & _ & _ & K & _). rewrite K. apply FinFun.Injective_map_NoDup; [|apply seq_NoDup]. intros a b E. apply Nat.pow_inj_r in E; lia.
Qed.
Lemma find_list : forall lo hi p a, pool_ok lo hi p -> lo <= a <= hi -> exists l, find_key (2 ^ a) (p_lists p) = Some l /\ l <> [] /\ (forall b, In b l -> b_chunk b = 2 ^ a).
Proof.
  intros lo hi p a H L. pose proof (keys_nodup _ _ _ H) as N. destruct H as (_ & _ & _ & K & LL & _).
  assert (I0 : In (2 ^ a) (map fst (p_lists p))) by (rewrite K; apply (in_map (fun i => 2 ^ i)); apply in_seq; lia).
  apply in_map_iff in I0 as ((k & l) & E & I0). cbn in E. subst k. exists l. split; [apply in_find; auto|]. apply LL. auto.
Qed.
Lemma alloc_in_ok : forall d hi b rest next alloc t hs o t' hs' r, driver_ok d -> pinv (2 ^ hi) next (b :: rest) alloc -> full b = false ->
  pairwise hs -> Permutation hs (hunks_of (2 ^ hi) (b :: rest) ++ o) ->
  alloc_in d (2 ^ hi) b t hs = (t', hs', r) ->
  pairwise hs' /\
  ((r = Fail /\ hs' = hs) \/
   exists b' ptr, r = Got (b', ptr) /\ Permutation hs' (hunks_of (2 ^ hi) (b' :: rest) ++ o) /\ pinv (2 ^ hi) next (b' :: rest) (assign ptr (b_id b) alloc) /\
     ~ In ptr (map fst alloc) /\ b_chunk b' = b_chunk b /\ In ptr (map fst (b_used b')) /\ (forall q, In q (map fst (b_used b)) -> In q (map fst (b_used b'))) /\
     (b_id b' = b_id b)).
Proof.
  intros d hi b rest next alloc t hs o t' hs' r D PI F PW PM E. pose proof (pow2_pos' hi) as T0.
  assert (OKb : bulk_ok (2 ^ hi) b) by (destruct PI as (A & _); inversion A; auto).
  unfold alloc_in in E. destruct (b_mem b) as [base|] eqn:MB.
  - destruct (take_ok _ base b OKb F ltac:(auto)) as (b' & ptr & i & E1 & E2 & E3 & E4 & E5 & E6 & E7 & E8 & E9 & E10). rewrite E1 in E. injection E as <- <- <-.
    assert (HO : hunk_of (2 ^ hi) b' = hunk_of (2 ^ hi) b) by (unfold hunk_of; rewrite MB, E5; auto).
    assert (PM' : Permutation hs (hunks_of (2 ^ hi) (b' :: rest) ++ o)) by (unfold hunks_of in *; cbn [flat_map] in *; rewrite HO; auto).
    split; auto. right. exists b', ptr. split; auto. split; auto.
    assert (PW' : pairwise (hunks_of (2 ^ hi) (b' :: rest))) by (eapply pairwise_perm in PM'; eauto; apply pairwise_app in PM'; tauto).
    destruct (pinv_take (2 ^ hi) next b b' rest alloc base ptr i T0 PI PW' E2 E3 E5 E4 E6 E7 E8 E9) as (Q1 & Q2).
    split; auto. split; auto. split; auto. rewrite E6. split; [left; auto|]. split; [right; auto|]. auto.
  - unfold ask in E. destruct (d t hs (2 ^ hi)) as [base|] eqn:DD; [|injection E as <- <- <-; split; auto].
    destruct (D _ _ _ _ DD) as (_ & AP).
    destruct (take_ok _ base b OKb F ltac:(auto)) as (b' & ptr & i & E1 & E2 & E3 & E4 & E5 & E6 & E7 & E8 & E9 & E10). rewrite E1 in E. injection E as <- <- <-.
    assert (PW2 : pairwise ((base, 2 ^ hi) :: hs)) by (apply pairwise_cons; split; auto; apply Forall_forall; auto).
    assert (PM' : Permutation ((base, 2 ^ hi) :: hs) (hunks_of (2 ^ hi) (b' :: rest) ++ o)).
    { unfold hunks_of in *. cbn [flat_map] in *. unfold hunk_of at 1. rewrite E5. unfold hunk_of at 1 in PM. rewrite MB in PM. cbn [app] in *. constructor. auto. }
    split; auto. right. exists b', ptr. split; auto. split; auto.
    assert (PW' : pairwise (hunks_of (2 ^ hi) (b' :: rest))) by (eapply pairwise_perm in PM'; eauto; apply pairwise_app in PM'; tauto).
    destruct (pinv_take (2 ^ hi) next b b' rest alloc base ptr i T0 PI PW' E2 E3 E5 E4 E6 E7 E8 E9) as (Q1 & Q2).
    split; auto. split; auto. split; auto. rewrite E6. split; [left; auto|]. split; [right; auto|]. auto.
Qed.
(** What allocate does to the pool. *)
Definition keeps (p p' : pool) : Prop :=
  forall b, In b (all_bulks p) -> exists b', In b' (all_bulks p') /\ b_id b' = b_id b /\ b_chunk b' = b_chunk b /\ forall q, In q (map fst (b_used b)) -> In q (map fst (b_used b')).
Lemma pool_alloc_ok : forall d lo hi p a t hs o p' t' hs' r, driver_ok d -> pool_ok lo hi p -> lo <= a <= hi -> pairwise hs -> Permutation hs (hunks_of (2 ^ hi) (all_bulks p) ++ o) ->
  pool_alloc d (2 ^ a) p t hs = (p', t', hs', r) ->
  pool_ok lo hi p' /\ pairwise hs' /\ Permutation hs' (hunks_of (2 ^ hi) (all_bulks p') ++ o) /\ keeps p p' /\
  (r = Fail \/ exists ptr, r = Got ptr /\ ~ In ptr (map fst (p_alloc p)) /\ exists b, In b (all_bulks p') /\ b_chunk b = 2 ^ a /\ In ptr (map fst (b_used b))).
Proof.
  intros d lo hi p a t hs o p' t' hs' r D OK LA PW PM E. destruct (find_list lo hi p a OK LA) as (l & FL & LN & LC). pose proof (keys_nodup _ _ _ OK) as KN.
  destruct OK as (L0 & O1 & O2 & O3 & O4 & O5). destruct (set_list_ok (2 ^ a) (p_lists p) l KN FL) as (rest & P1 & P2).
  fold (all_bulks p) in P1. unfold pool_alloc in E. rewrite FL in E. destruct l as [|b0 r0]; [congruence|]. clear LN. set (l := b0 :: r0) in *.
  destruct (rotate (length l) l) as (l' & f) eqn:RO. apply rotate_ok in RO as (RP & RF).
  assert (LC' : forall b, In b l' -> b_chunk b = 2 ^ a) by (intros b I0; apply LC; eapply Permutation_in; [symmetry; exact RP|auto]).
  assert (MX : max_chunk p = 2 ^ hi) by (unfold max_chunk; rewrite O2; auto). rewrite MX in E.
  (* lists with l'' in place of l *)
  assert (LL : forall l'' alloc next, l'' <> [] -> (forall b, In b l'' -> b_chunk b = 2 ^ a) -> pinv (2 ^ hi) next (l'' ++ rest) alloc ->
     pool_ok lo hi (Pool (p_min p) (p_max p) (set_list (2 ^ a) l'' (p_lists p)) alloc next)).
  { intros l'' al nx N1 N2 PI. split; auto. split; auto. split; auto. split; [cbn [p_lists]; rewrite set_list_keys; auto|]. split.
    - intros k m I0. cbn [p_lists] in I0. apply set_list_in in I0 as [(-> & ->)|I0]; auto.
    - cbn [p_next p_alloc]. eapply pinv_perm; [symmetry; apply P2|auto]. }
  assert (PIl : pinv (2 ^ hi) (p_next p) (l' ++ rest) (p_alloc p)).
  { eapply pinv_perm; [|exact O5]. rewrite P1. apply Permutation_app_tail. auto. }
  assert (PMl : Permutation hs (hunks_of (2 ^ hi) (l' ++ rest) ++ o)).
  { rewrite PM. apply Permutation_app_tail. apply hunks_perm. rewrite P1. apply Permutation_app_tail. auto. }
  assert (INl : forall b, In b (all_bulks p) -> In b (l' ++ rest)).
  { intros b I0. eapply Permutation_in; [|exact I0]. rewrite P1. apply Permutation_app_tail. auto. }
  assert (AB : forall l'' al nx, Permutation (all_bulks (Pool (p_min p) (p_max p) (set_list (2 ^ a) l'' (p_lists p)) al nx)) (l'' ++ rest)) by (intros; apply P2).
  destruct f.
  - destruct (RF eq_refl) as (b & r' & -> & FB). clear RF. cbn [app] in PIl, PMl, INl.
    destruct (alloc_in d (2 ^ hi) b t hs) as ((t1 & hs1) & g) eqn:AI.
    destruct (alloc_in_ok d hi b (r' ++ rest) _ _ t hs o t1 hs1 g D PIl FB PW PMl AI) as (PW1 & [(-> & ->)|(b' & ptr & -> & Q1 & Q2 & Q3 & Q4 & Q5 & Q6 & Q7)]).
    + injection E as <- <- <- <-. split; [apply LL; auto; congruence|]. split; auto. split; [rewrite PMl; apply Permutation_app_tail; apply hunks_perm; symmetry; apply AB|]. split; [|auto].
      intros x X. exists x. split; [eapply Permutation_in; [symmetry; apply AB|]; auto|auto].
    + injection E as <- <- <- <-. split; [apply LL; [congruence|intros x [<- |X]; [rewrite Q4; apply LC'; left; auto|apply LC'; right; auto]|auto]|]. split; auto.
      split; [rewrite Q1; apply Permutation_app_tail; apply hunks_perm; symmetry; apply AB|]. split.
      * intros x X. apply INl in X as [<- |X]; [exists b'|exists x]; (split; [eapply Permutation_in; [symmetry; apply AB|]; cbn; auto|auto]).
      * right. exists ptr. split; auto. split; auto. exists b'. split; [eapply Permutation_in; [symmetry; apply AB|]; left; auto|]. split; auto. rewrite Q4. apply LC'. left. auto.
  - set (nb := new_bulk (p_next p) (2 ^ a) (2 ^ hi)) in *.
    assert (E' : match alloc_in d (2 ^ hi) nb t hs with
          | (t, hs, Got (b', ptr)) => (Pool (p_min p) (p_max p) (set_list (2 ^ a) (l' ++ [b']) (p_lists p)) (assign ptr (b_id nb) (p_alloc p)) (S (p_next p)), t, hs, Got ptr)
          | (t, hs, Fail) => (Pool (p_min p) (p_max p) (set_list (2 ^ a) (l' ++ [nb]) (p_lists p)) (p_alloc p) (S (p_next p)), t, hs, Fail)
          | (t, hs, Broken) => (p, t, hs, Broken) end = (p', t', hs', r)) by (destruct l'; exact E). clear E.
    assert (PN : pinv (2 ^ hi) (S (p_next p)) (nb :: l' ++ rest) (p_alloc p)) by (unfold nb; eapply pinv_new; eauto; lia).
    assert (PMn : Permutation hs (hunks_of (2 ^ hi) (nb :: l' ++ rest) ++ o)) by exact PMl.
    assert (FB : full nb = false).
    { unfold full, nb, new_bulk. cbn. destruct (new_bulk_ok 0 a hi ltac:(lia)) as (_ & N & _). cbn in N. destruct (2 ^ hi / 2 ^ a) eqn:X; [lia|reflexivity]. }
    destruct (alloc_in d (2 ^ hi) nb t hs) as ((t1 & hs1) & g) eqn:AI.
    assert (SW : forall x, Permutation ((l' ++ [x]) ++ rest) (x :: l' ++ rest)) by (intros x; rewrite <- app_assoc; symmetry; apply Permutation_middle).
    destruct (alloc_in_ok d hi nb (l' ++ rest) _ _ t hs o t1 hs1 g D PN FB PW PMn AI) as (PW1 & [(-> & ->)|(b' & ptr & -> & Q1 & Q2 & Q3 & Q4 & Q5 & Q6 & Q7)]).
    + injection E' as <- <- <- <-. split; [apply LL; [destruct l'; discriminate|intros x X; apply in_app_or in X as [X|[<- |[]]]; auto|eapply pinv_perm; [symmetry; apply SW|auto]]|]. split; auto.
      split; [rewrite PMn; apply Permutation_app_tail; apply hunks_perm; symmetry; rewrite AB; apply SW|]. split; [|auto].
      intros x X. exists x. split; [eapply Permutation_in; [symmetry; rewrite AB; apply SW|]; right; auto|auto].
    + injection E' as <- <- <- <-. split; [apply LL; [destruct l'; discriminate|intros x X; apply in_app_or in X as [X|[<- |[]]]; auto|eapply pinv_perm; [symmetry; apply SW|auto]]|]. split; auto.
      split; [rewrite Q1; apply Permutation_app_tail; apply hunks_perm; symmetry; rewrite AB; apply SW|]. split.
      * intros x X. exists x. split; [eapply Permutation_in; [symmetry; rewrite AB; apply SW|]; right; auto|auto].
      * right. exists ptr. split; auto. split; auto. exists b'. split; [eapply Permutation_in; [symmetry; rewrite AB; apply SW|]; left; auto|]. split; auto.
Qed.
