(** Proofs about the memory pool (C67). *)
From Coq Require Import List Bool Arith Lia Permutation.
Import ListNotations.
From Verif Require Import PoolModel PoolSpec.

(** ** Maps *)
Lemma erase_in : forall A k (l : list (nat * A)) e, In e (erase k l) <-> In e l /\ fst e <> k.
Proof. intros A k l e. unfold erase. rewrite filter_In, negb_true_iff, Nat.eqb_neq. intuition congruence. Qed.
Lemma find_in : forall A k (l : list (nat * A)) a, find_key k l = Some a -> In (k, a) l.
Proof.
  induction l as [|[k' a'] l IH]; cbn; intros a H; [discriminate|]. destruct (Nat.eqb_spec k k') as [-> |N]; [injection H as ->; auto|auto].
Qed.
Lemma find_none : forall A k (l : list (nat * A)), find_key k l = None -> ~ In k (map fst l).
Proof.
  induction l as [|[k' a'] l IH]; cbn; intros H; auto. destruct (Nat.eqb_spec k k') as [-> |N]; [discriminate|]. intros [E|E]; [congruence|]. apply IH; auto.
Qed.
Lemma in_find : forall A k a (l : list (nat * A)), NoDup (map fst l) -> In (k, a) l -> find_key k l = Some a.
Proof.
  induction l as [|[k' a'] l IH]; cbn; intros N H; [destruct H|]. inversion N; subst. destruct H as [H|H].
  - injection H as -> ->. rewrite Nat.eqb_refl. auto.
  - destruct (Nat.eqb_spec k k') as [-> |E]; auto. exfalso. apply H2. apply (in_map fst) in H. auto.
Qed.
Lemma erase_nodup : forall A k (l : list (nat * A)), NoDup (map fst l) -> NoDup (map fst (erase k l)).
Proof.
  induction l as [|[k' a'] l IH]; cbn; intros N; auto. inversion N; subst. destruct (negb (k =? k')); cbn; auto. constructor; auto.
  intros H. apply H1. apply in_map_iff in H as (e & E & H). apply erase_in in H as (H & _). rewrite <- E. apply in_map. auto.
Qed.
Lemma erase_not : forall A k (l : list (nat * A)), ~ In k (map fst (erase k l)).
Proof. intros A k l H. apply in_map_iff in H as (e & E & H). apply erase_in in H as (_ & H). auto. Qed.
Lemma erase_id : forall A k (l : list (nat * A)), ~ In k (map fst l) -> erase k l = l.
Proof.
  induction l as [|[k' a'] l IH]; cbn; intros N; auto. destruct (Nat.eqb_spec k k') as [-> |E]; [exfalso; auto|]. cbn. f_equal. apply IH. auto.
Qed.
Lemma assign_nodup : forall A k a (l : list (nat * A)), NoDup (map fst l) -> NoDup (map fst (assign k a l)).
Proof. intros. cbn. constructor; [apply erase_not|apply erase_nodup; auto]. Qed.
Lemma erase_perm : forall A k a (l : list (nat * A)), NoDup (map fst l) -> In (k, a) l -> Permutation l ((k, a) :: erase k l).
Proof.
  induction l as [|[k' a'] l IH]; cbn; intros N H; [destruct H|]. inversion N; subst. destruct H as [H|H].
  - injection H as -> ->. rewrite Nat.eqb_refl. cbn. fold (erase k l). rewrite erase_id; auto.
  - destruct (Nat.eqb_spec k k') as [-> |E]; [exfalso; apply H2; apply (in_map fst) in H; auto|]. cbn. fold (erase k l). rewrite perm_swap. constructor. auto.
Qed.

(** ** Rounding *)
Lemma round_ge : forall x, x <= round_up_pow2 x.
Proof.
  intros x. unfold round_up_pow2. destruct (Nat.ltb_spec x 2); auto. pose proof (Nat.log2_spec (x - 1) ltac:(lia)). lia.
Qed.
Lemma round_pow : forall x, 0 < x -> exists a, round_up_pow2 x = 2 ^ a.
Proof.
  intros x H. unfold round_up_pow2. destruct (Nat.ltb_spec x 2); [exists 0; cbn; lia|eauto].
Qed.
Lemma round_le : forall x k, x <= 2 ^ k -> round_up_pow2 x <= 2 ^ k.
Proof.
  intros x k H. unfold round_up_pow2. destruct (Nat.ltb_spec x 2); auto. apply Nat.pow_le_mono_r; [lia|].
  assert (Nat.log2 (x - 1) < k); [|lia]. apply Nat.log2_lt_pow2; lia.
Qed.
Lemma pow_inj_le : forall a b, 2 ^ a <= 2 ^ b -> a <= b.
Proof. intros a b H. apply Nat.pow_le_mono_r_iff in H; lia. Qed.
Lemma pow2_pos' : forall a, 0 < 2 ^ a.
Proof. intros. pose proof (Nat.pow_nonzero 2 a). lia. Qed.
(** The size of a chunk is one the pool has. *)
Lemma chunk_size : forall x lo hi, lo <= hi -> x <= 2 ^ hi -> exists a, Nat.max (round_up_pow2 x) (2 ^ lo) = 2 ^ a /\ lo <= a <= hi.
Proof.
  intros x lo hi L H. destruct (Nat.eq_dec x 0) as [-> |N].
  - exists lo. split; [cbn; lia|lia].
  - destruct (round_pow x ltac:(lia)) as (a & E). pose proof (round_le x hi H) as R. rewrite E in *. apply pow_inj_le in R.
    destruct (Nat.le_gt_cases a lo).
    + exists lo. split; [|lia]. apply Nat.max_r. apply Nat.pow_le_mono_r; lia.
    + exists a. split; [|lia]. apply Nat.max_l. apply Nat.pow_le_mono_r; lia.
Qed.

(** ** Bulks *)
Definition bulk_ok (total : nat) (b : bulk) : Prop :=
  0 < b_chunk b /\ 0 < b_num b /\ b_num b * b_chunk b = total /\ (b_mem b = None -> b_init b = 0) /\ b_init b <= b_num b /\
  NoDup (b_free b ++ map snd (b_used b)) /\ (forall i, In i (b_free b ++ map snd (b_used b)) <-> i < b_init b) /\ NoDup (map fst (b_used b)) /\
  (forall p i, In (p, i) (b_used b) -> exists base, b_mem b = Some base /\ p = base + b_chunk b * i).
Lemma new_bulk_ok : forall id a hi, a <= hi -> bulk_ok (2 ^ hi) (new_bulk id (2 ^ a) (2 ^ hi)).
Proof.
  intros id a hi H. pose proof (pow2_pos' a). pose proof (pow2_pos' hi).
  assert (E : 2 ^ hi = 2 ^ (hi - a) * 2 ^ a) by (rewrite <- Nat.pow_add_r; f_equal; lia).
  assert (E2 : 2 ^ hi / 2 ^ a = 2 ^ (hi - a)) by (rewrite E at 1; apply Nat.div_mul; lia).
  unfold new_bulk, bulk_ok; cbn. rewrite E2. pose proof (pow2_pos' (hi - a)).
  split; [lia|]. split; [lia|]. split; [lia|]. split; [auto|]. split; [lia|]. split; [constructor|]. split; [intros i; split; [intros []|lia]|]. split; [constructor|]. intros p i [].
Qed.
Lemma base_mul : forall base base' c i i', 0 < c -> base + c * i = base' + c * i' -> base = base' -> i = i'.
Proof. intros base base' c i i' C H E. subst. assert (c * i = c * i') by lia. apply Nat.mul_cancel_l in H0; lia. Qed.
(** With room, allocChunk succeeds, and the chunk is new. *)
Lemma take_ok : forall total base b, bulk_ok total b -> full b = false -> (b_mem b = None \/ b_mem b = Some base) ->
  exists b' ptr i, take_chunk base b = Got (b', ptr) /\ bulk_ok total b' /\ b_id b' = b_id b /\ b_chunk b' = b_chunk b /\ b_mem b' = Some base /\
    b_used b' = (ptr, i) :: b_used b /\ ptr = base + b_chunk b * i /\ i < b_num b /\ ~ In ptr (map fst (b_used b)) /\ ~ In i (map snd (b_used b)).
Proof.
  intros total base b (C & N & T & M & L & D & U & F & P) R Q. unfold take_chunk, full in *.
  assert (P' : forall p i, In (p, i) (b_used b) -> p = base + b_chunk b * i).
  { intros p i H. destruct (P p i H) as (base' & E & ->). destruct Q as [Q|Q]; congruence. }
  assert (NI : forall i, ~ In i (map snd (b_used b)) -> ~ In (base + b_chunk b * i) (map fst (b_used b))).
  { intros i H1 H2. apply in_map_iff in H2 as ((p & j) & E & H2). cbn in E. subst p. pose proof (base_mul _ _ _ _ _ C (P' _ _ H2) eq_refl) as E. subst j. apply H1. apply (in_map snd) in H2. auto. }
  destruct (b_free b) as [|i free] eqn:EF.
  - rewrite andb_true_r in R. apply negb_false_iff in R. rewrite R. apply Nat.ltb_lt in R. cbn [app] in D, U.
    assert (I1 : ~ In (b_init b) (map snd (b_used b))) by (intros H; apply U in H; lia).
    do 3 eexists. split; [reflexivity|]. unfold assign. rewrite erase_id by (apply NI; auto). split.
    + unfold bulk_ok. cbn [b_chunk b_num b_mem b_init b_free b_used app map fst snd]. split; [auto|]. split; [auto|]. split; [auto|]. split; [discriminate|]. split; [lia|].
      split; [constructor; auto|]. split; [intros i; cbn; rewrite U; lia|]. split; [constructor; auto|].
      intros p i [H|H]; [injection H as <- <-; eauto|]. exists base. split; auto.
    + cbn. split; [auto|]. split; [auto|]. split; [auto|]. split; [reflexivity|]. split; [auto|]. split; [lia|]. split; auto.
  - cbn [app] in D, U. inversion D as [|? ? D1 D2]; subst. rewrite in_app_iff in D1.
    assert (I1 : ~ In i (map snd (b_used b))) by tauto.
    do 3 eexists. split; [reflexivity|]. unfold assign. rewrite erase_id by (apply NI; auto). assert (IL : i < b_init b) by (apply U; left; auto). split.
    + unfold bulk_ok. cbn [b_chunk b_num b_mem b_init b_free b_used map fst snd]. split; [auto|]. split; [auto|]. split; [auto|]. split; [discriminate|]. split; [auto|].
      split; [apply NoDup_Add with (a := i) (l := free ++ map snd (b_used b)); [apply Add_app|split; auto; rewrite in_app_iff; tauto]|].
      split; [intros j; rewrite in_app_iff; cbn [In]; rewrite <- U; cbn [In]; rewrite in_app_iff; tauto|]. split; [constructor; auto|].
      intros p j [H|H]; [injection H as <- <-; eauto|]. exists base. split; auto.
    + cbn. split; [auto|]. split; [auto|]. split; [auto|]. split; [reflexivity|]. split; [auto|]. split; [lia|]. split; auto.
Qed.
Lemma free_ok : forall total ptr b, bulk_ok total b -> In ptr (map fst (b_used b)) ->
  exists b', free_chunk ptr b = Some b' /\ bulk_ok total b' /\ b_id b' = b_id b /\ b_chunk b' = b_chunk b /\ b_mem b' = b_mem b /\ b_used b' = erase ptr (b_used b).
Proof.
  intros total ptr b (C & N & T & M & L & D & U & F & P) H. apply in_map_iff in H as ((p & i) & E & H). cbn in E. subst p. unfold free_chunk.
  rewrite (in_find _ _ _ _ F H). eexists. split; [reflexivity|]. split; [|cbn; auto].
  pose proof (erase_perm _ ptr i (b_used b) F H) as PM. apply (Permutation_map snd) in PM. cbn [map snd] in PM.
  assert (PP : Permutation ((b_free b ++ [i]) ++ map snd (erase ptr (b_used b))) (b_free b ++ map snd (b_used b))).
  { rewrite <- app_assoc. cbn [app]. apply Permutation_app_head. symmetry. auto. }
  unfold bulk_ok. cbn [b_chunk b_num b_mem b_init b_free b_used]. split; [auto|]. split; [auto|]. split; [auto|]. split; [auto|]. split; [auto|].
  split; [eapply Permutation_NoDup; [symmetry; exact PP|auto]|]. split; [intros j; rewrite <- U; split; apply Permutation_in; [auto|symmetry; auto]|].
  split; [apply erase_nodup; auto|]. intros p j I0. apply erase_in in I0 as (I0 & _). auto.
Qed.
