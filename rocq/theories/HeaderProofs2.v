(** Proofs about layouts (C65): data layouts that meet the assumptions; members do not overlap. *)
From Coq Require Import List Bool Arith Lia.
Import ListNotations.
From Verif Require Import CastModel HeaderModel HeaderSpec HeaderProofs.
Local Open Scope nat_scope.

Lemma round_up_ge : forall k a, 0 < a -> k <= round_up k a.
Proof. intros k a H. unfold round_up. pose proof (Nat.div_mod (k + (a - 1)) a ltac:(lia)). pose proof (Nat.mod_upper_bound (k + (a - 1)) a ltac:(lia)). lia. Qed.
Lemma round_up_small : forall x k, 0 < x -> x <= k -> round_up x k = k.
Proof. intros x k A B. unfold round_up. assert (E : 1 = (x + (k - 1)) / k) by (apply Nat.div_unique with (r := x - 1); lia). rewrite <- E. lia. Qed.

(** ** Natural alignment *)
Lemma natural_pow : forall a, natural (2 ^ a) = 2 ^ a.
Proof. intros a. unfold natural. rewrite Nat.log2_up_pow2; auto. lia. Qed.
Lemma pow_pos : forall a, 0 < 2 ^ a.
Proof. intros a. pose proof (Nat.pow_nonzero 2 a). lia. Qed.
Lemma bsize_pow : forall b, exists c, bsize b = 2 ^ c.
Proof. intros []; ((exists 0; reflexivity) || (exists 1; reflexivity) || (exists 2; reflexivity) || (exists 3; reflexivity)). Qed.
Lemma log2_up_le : forall n, 0 < n -> n <= 2 ^ Nat.log2_up n.
Proof. intros n H. destruct (Nat.eq_dec n 1) as [->|N]; [cbn; lia|]. apply Nat.log2_up_spec. lia. Qed.
Lemma mem_count_pow : forall dtw n, In dtw [8; 16; 32; 64] -> 0 < n -> exists a, mem_count dtw n = 2 ^ a /\ n <= 2 ^ a.
Proof.
  intros dtw n I0 H. unfold mem_count. pose proof (log2_up_le n H) as L. set (p := 2 ^ Nat.log2_up n) in *.
  destruct (Nat.ltb_spec (p * dtw) 128) as [Q|Q]; [|exists (Nat.log2_up n); split; [reflexivity|exact L]].
  destruct I0 as [<- |[<- |[<- |[<- |[]]]]].
  - exists 4. split; [reflexivity|]. change (2 ^ 4) with 16. lia.
  - exists 3. split; [reflexivity|]. change (2 ^ 3) with 8. lia.
  - exists 2. split; [reflexivity|]. change (2 ^ 2) with 4. lia.
  - exists 1. split; [reflexivity|]. change (2 ^ 1) with 2. lia.
Qed.
Lemma natural_abi : forall j dtw psize salign, In dtw [8; 16; 32; 64] -> psize = 4 \/ psize = 8 ->
  (forall s, 0 < salign s <= ssize psize s) -> abi (2 ^ j) dtw psize salign natural.
Proof.
  intros j dtw psize salign D P S. assert (Z : forall s, exists c, ssize psize s = 2 ^ c).
  { intros [b|e|]; [apply bsize_pow|exists 2; reflexivity|]. destruct P as [-> | ->]; [exists 2|exists 3]; reflexivity. }
  split; [intros s; apply S|]. split; [intros k; apply pow_pos|]. split.
  - intros s. destruct (Z s) as (c & E). specialize (S s). rewrite E in *. rewrite <- Nat.pow_add_r, natural_pow.
    pose proof (Nat.pow_le_mono_r 2 c (j + c) ltac:(lia) ltac:(lia)). pose proof (pow_pos (j + c)). split; [lia|]. apply round_up_small; lia.
  - intros n b N. destruct (mem_count_pow dtw n D N) as (a & -> & L). destruct (bsize_pow b) as (c & E). specialize (S (SB b)). cbn [HeaderModel.ssize] in S. rewrite E in *.
    assert (M : n * 2 ^ c <= 2 ^ a * 2 ^ c) by (apply Nat.mul_le_mono_r; auto). pose proof (pow_pos c).
    assert (N0 : 0 < n * 2 ^ c) by (apply Nat.mul_pos_pos; auto). cbn zeta. revert M. rewrite <- Nat.pow_add_r, natural_pow. intros M.
    pose proof (Nat.pow_le_mono_r 2 c (a + c) ltac:(lia) ltac:(lia)). pose proof (pow_pos (a + c)). split; [lia|].
    rewrite round_up_small by lia. symmetry. apply round_up_small; lia.
Qed.

Lemma idx_le : forall i n z, i < n -> i * z + z <= n * z.
Proof. intros i n z H. pose proof (Nat.mul_le_mono_r (S i) n z H). cbn in H0. lia. Qed.

Lemma l_align_pos : forall ls, 0 < l_align ls.
Proof. unfold l_align. induction ls; cbn [map fold_right]; lia. Qed.

(** ** Members stay inside and do not overlap *)
Section Target.
Variables (W dtw : nat) (psize : nat) (salign : sc -> nat) (valign : nat -> nat).
Hypothesis SA : forall s, 0 < salign s.
Hypothesis VA : forall k, 0 < valign k.
Notation ssize := (ssize psize).
Notation layout := (layout W dtw psize salign valign).
Notation offset := (offset W dtw psize salign valign).
Notation l_scalar := (l_scalar W psize salign valign).
Notation in_scalar := (in_scalar W psize).
Notation go_l := (go_l W dtw psize salign valign).
Hypothesis MC : forall n, n <= mem_count dtw n.

Lemma align_pos : forall t v, 0 < snd (layout v t).
Proof.
  assert (S : forall v s, 0 < snd (l_scalar v s)) by (intros [| | |] s; cbn; auto).
  induction t as [x s|x n b|n t IH|x nm al ms IH] using hty_ind; intros v; cbn [HeaderModel.layout]; auto.
  - destruct (eff v x); cbn; auto.
  - apply IH.
  - unfold l_struct. cbn [snd]. apply l_align_pos.
Qed.
Lemma scalar_inside : forall v s p o s', in_scalar v s p = Some (o, s') -> s' = s /\ o + ssize s <= fst (l_scalar v s).
Proof.
  intros v s p o s' H. destruct v, p as [|i [|? ?]]; cbn -[Nat.ltb] in H; try discriminate; try (injection H as <- <-; cbn; auto; fail).
  - destruct (Nat.ltb_spec i W); [|discriminate]. injection H as <- <-. split; auto. unfold HeaderModel.l_scalar, l_vector. cbn [fst].
    pose proof (idx_le i W (ssize s) ltac:(assumption)). pose proof (round_up_ge (W * ssize s) _ (VA (W * ssize s))). lia.
  - destruct (Nat.ltb_spec i w); [|discriminate]. injection H as <- <-. split; auto. unfold HeaderModel.l_scalar, l_array. cbn [fst]. apply idx_le. auto.
Qed.
Lemma scalar_disjoint : forall v s p q o s1 o' s2, in_scalar v s p = Some (o, s1) -> in_scalar v s q = Some (o', s2) -> p <> q ->
  o + ssize s1 <= o' \/ o' + ssize s2 <= o.
Proof.
  intros v s p q o s1 o' s2 A B N. destruct v, p as [|i [|? ?]]; cbn -[Nat.ltb] in A; try discriminate; destruct q as [|j [|? ?]]; cbn -[Nat.ltb] in B; try discriminate; try congruence.
  - destruct (Nat.ltb_spec i W), (Nat.ltb_spec j W); try discriminate. injection A as <- <-. injection B as <- <-.
    assert (i <> j) by congruence. nia.
  - destruct (Nat.ltb_spec i w), (Nat.ltb_spec j w); try discriminate. injection A as <- <-. injection B as <- <-.
    assert (i <> j) by congruence. nia.
Qed.
Lemma shift_some : forall k r o s, shift k r = Some (o, s) -> exists o', r = Some (o', s) /\ o = k + o'.
Proof. intros k [[o' s']|] o s H; cbn in H; [|discriminate]. injection H as <- <-. eauto. Qed.

Definition inside v t := forall p o s, offset v t p = Some (o, s) -> o + ssize s <= fst (layout v t).
Definition apart v t := forall p q o o' s s', offset v t p = Some (o, s) -> offset v t q = Some (o', s') -> p <> q ->
  o + ssize s <= o' \/ o' + ssize s' <= o.
Lemma l_fields_ge : forall ls k, (forall l, In l ls -> 0 < snd l) -> k <= l_fields k ls.
Proof.
  induction ls as [|l ls IH]; intros k H; cbn [l_fields]; auto. pose proof (round_up_ge k (snd l) (H l ltac:(left; auto))).
  specialize (IH (round_up k (snd l) + fst l) ltac:(intros; apply H; right; auto)). lia.
Qed.
Lemma layouts_pos : forall v ms l, In l (map (layout v) ms) -> 0 < snd l.
Proof. intros v ms l H. apply in_map_iff in H as (t & <- & _). apply align_pos. Qed.
Lemma go_l_cons : forall v p k i t ms, go_l v p k i (t :: ms) =
  match i with O => shift (round_up k (snd (layout v t))) (offset v t p) | S i => go_l v p (round_up k (snd (layout v t)) + fst (layout v t)) i ms end.
Proof. reflexivity. Qed.
Lemma go_inside : forall v p ms k i o s, Forall (inside v) ms -> go_l v p k i ms = Some (o, s) -> k <= o /\ o + ssize s <= l_fields k (map (layout v) ms).
Proof.
  intros v p. induction ms as [|t ms IH]; intros k i o s F H; [discriminate|]. inversion F as [|? ? F1 F2]; subst. rewrite go_l_cons in H.
  cbn [map l_fields]. pose proof (round_up_ge k _ (align_pos t v)) as R. destruct i as [|i].
  - apply shift_some in H as (o' & H & ->). apply F1 in H. pose proof (l_fields_ge (map (layout v) ms) (round_up k (snd (layout v t)) + fst (layout v t)) (layouts_pos v ms)). lia.
  - apply IH in H; auto. lia.
Qed.
Lemma go_apart : forall v p q ms k i j o o' s s', Forall (inside v) ms -> Forall (apart v) ms ->
  go_l v p k i ms = Some (o, s) -> go_l v q k j ms = Some (o', s') -> i :: p <> j :: q -> o + ssize s <= o' \/ o' + ssize s' <= o.
Proof.
  intros v p q. induction ms as [|t ms IH]; intros k i j o o' s s' F G A B N; [discriminate|]. inversion F as [|? ? F1 F2]; subst. inversion G as [|? ? G1 G2]; subst.
  rewrite go_l_cons in A, B. destruct i as [|i], j as [|j].
  - apply shift_some in A as (a & A & ->). apply shift_some in B as (b & B & ->). assert (p <> q) by congruence. specialize (G1 _ _ _ _ _ _ A B H). lia.
  - apply shift_some in A as (a & A & ->). apply F1 in A. apply go_inside in B; auto. lia.
  - apply shift_some in B as (b & B & ->). apply F1 in B. apply go_inside in A; auto. lia.
  - apply (IH _ i j _ _ _ _ F2 G2 A B). congruence.
Qed.
Lemma layout_inside : forall t v, inside v t.
Proof.
  induction t as [x s|x n b|n t IH|x nm al ms IH] using hty_ind; intros v p o s' H.
  - cbn [HeaderModel.offset HeaderModel.layout] in *. apply scalar_inside in H as (-> & H). auto.
  - cbn [HeaderModel.offset HeaderModel.layout] in *. destruct p as [|i p]; [discriminate|]. destruct (Nat.ltb_spec i n) as [L|L]; [|discriminate].
    assert (U : forall o, shift (i * bsize b) (in_scalar Uni (SB b) p) = Some (o, s') -> o + ssize s' <= fst (l_vector valign (mem_count dtw n * bsize b))).
    { intros o0 E. apply shift_some in E as (a & E & ->). apply scalar_inside in E as (-> & E). cbn in E |- *.
      pose proof (round_up_ge (mem_count dtw n * bsize b) _ (VA (mem_count dtw n * bsize b))). pose proof (MC n). nia. }
    destruct (eff v x); auto; apply shift_some in H as (a & H & ->); apply scalar_inside in H as (-> & H); unfold l_array; cbn [fst]; nia.
  - cbn [HeaderModel.offset HeaderModel.layout] in *. destruct p as [|i p]; [discriminate|]. destruct (Nat.ltb_spec i n) as [L|L]; [|discriminate].
    apply shift_some in H as (a & H & ->). apply IH in H. unfold l_array. cbn [fst]. nia.
  - rewrite offset_struct in H. destruct p as [|i p]; [discriminate|].
    assert (F : Forall (inside (eff v x)) ms) by (revert IH; apply Forall_impl; auto).
    pose proof H as H0. apply go_inside in H; auto. cbn [HeaderModel.layout]. destruct ms as [|t ms]; [discriminate|]. unfold l_struct. cbn [fst].
    match goal with |- _ <= round_up ?k ?a => pose proof (round_up_ge k a) as R; assert (0 < a) by apply l_align_pos end. specialize (R H1). lia.
Qed.
Lemma layout_apart : forall t v, apart v t.
Proof.
  induction t as [x s|x n b|n t IH|x nm al ms IH] using hty_ind; intros v p q o o' s1 s2 A B N.
  - cbn [HeaderModel.offset] in *. eapply scalar_disjoint; eauto.
  - cbn [HeaderModel.offset] in *. destruct p as [|i p], q as [|j q]; try discriminate. destruct (Nat.ltb_spec i n), (Nat.ltb_spec j n); try discriminate.
    assert (U : forall o o', shift (i * bsize b) (in_scalar Uni (SB b) p) = Some (o, s1) -> shift (j * bsize b) (in_scalar Uni (SB b) q) = Some (o', s2) ->
                o + ssize s1 <= o' \/ o' + ssize s2 <= o).
    { intros o0 o1 E F. apply shift_some in E as (a & E & ->). apply shift_some in F as (c & F & ->). cbn in E, F. destruct p, q; try discriminate.
      injection E as <- <-. injection F as <- <-. assert (i <> j) by congruence. cbn. nia. }
    assert (V : forall u, shift (i * fst (l_scalar u (SB b))) (in_scalar u (SB b) p) = Some (o, s1) -> shift (j * fst (l_scalar u (SB b))) (in_scalar u (SB b) q) = Some (o', s2) ->
                o + ssize s1 <= o' \/ o' + ssize s2 <= o).
    { intros u E F. apply shift_some in E as (a & E & ->). apply shift_some in F as (c & F & ->). destruct (Nat.eq_dec i j) as [-> |D].
      - assert (p <> q) by congruence. pose proof (scalar_disjoint _ _ _ _ _ _ _ _ E F H1). lia.
      - apply scalar_inside in E as (-> & E). apply scalar_inside in F as (-> & F). set (z := fst (l_scalar u (SB b))) in *. nia. }
    destruct (eff v x); eauto.
  - cbn [HeaderModel.offset] in *. destruct p as [|i p], q as [|j q]; try discriminate. destruct (Nat.ltb_spec i n), (Nat.ltb_spec j n); try discriminate.
    apply shift_some in A as (a & A & ->). apply shift_some in B as (c & B & ->). destruct (Nat.eq_dec i j) as [-> |D].
    + assert (p <> q) by congruence. pose proof (IH v _ _ _ _ _ _ A B H1). lia.
    + apply layout_inside in A. apply layout_inside in B. set (z := fst (layout v t)) in *. nia.
  - rewrite offset_struct in A, B. destruct p as [|i p], q as [|j q]; try discriminate.
    eapply go_apart; [| |exact A|exact B|exact N]; [apply Forall_forall; intros; apply layout_inside|revert IH; apply Forall_impl; auto].
Qed.
End Target.
Lemma mem_count_ge : forall dtw n, In dtw [8; 16; 32; 64] -> n <= mem_count dtw n.
Proof.
  intros dtw n D. destruct n as [|n]; [lia|]. destruct (mem_count_pow dtw (S n) D) as (a & -> & L); lia.
Qed.
