From Coq Require Import ZArith List Bool Lia.
From Verif Require Import Bits LanesModel LanesSpec LanesProofs ForeachModel ForeachSpec ForeachProofs4
  AtomicsModel AtomicsSpec AtomicsProofs NumModel NumSpec.
Import ListNotations.
Local Open Scope Z_scope.

(** ** Copies *)

Lemma addr_in p n k : block p n -> 0 <= k < n -> addr p k = p + k.
Proof. intros [H1 H2] Hk. unfold addr. apply wrapu_id. unfold in_u. lia. Qed.

Lemma store_same m a x : store_byte m a x a = x.
Proof. unfold store_byte. now rewrite Z.eqb_refl. Qed.
Lemma store_other m a x b : b <> a -> store_byte m a x b = m b.
Proof. intros H. unfold store_byte. apply Z.eqb_neq in H. now rewrite H. Qed.

(* copying upwards is right unless the destination starts inside the source *)
Lemma copy_up_spec test d s n : block d n -> block s n -> (forall j, 0 <= j -> test j = (j <? n)) ->
  d <= s \/ s + n <= d ->
  forall fuel j m, 0 <= j -> (Z.to_nat (n - j) < fuel)%nat ->
  exists m', copy_up fuel test d s j m = Some m' /\
    (forall k, j <= k < n -> m' (d + k) = m (s + k)) /\
    (forall a, ~ (d + j <= a < d + n) -> m' a = m a).
Proof.
  intros Bd Bs Ht Hov. induction fuel as [|f IH]; intros j m Hj Hf; [lia|].
  cbn [copy_up]. rewrite Ht by exact Hj. destruct (Z.ltb_spec j n) as [L|L].
  - rewrite (addr_in d n) by (auto; lia). rewrite (addr_in s n) by (auto; lia).
    destruct (IH (j + 1) (store_byte m (d + j) (m (s + j)))) as (m' & E & A & B); [lia|lia|].
    exists m'. split; [exact E|]. split.
    + intros k Hk. destruct (Z.eq_dec k j) as [->|Hne].
      * rewrite B by lia. apply store_same.
      * rewrite A by lia. apply store_other. lia.
    + intros a Ha. rewrite B by lia. apply store_other. lia.
  - exists m. split; [reflexivity|]. split; [lia|auto].
Qed.

(* copying downwards is right unless the source starts inside the destination *)
Lemma copy_down_spec d s n : block d n -> block s n -> s <= d ->
  forall fuel j m, j < n -> (Z.to_nat (j + 1) < fuel)%nat ->
  exists m', copy_down fuel d s j m = Some m' /\
    (forall k, 0 <= k <= j -> m' (d + k) = m (s + k)) /\
    (forall a, ~ (d <= a <= d + j) -> m' a = m a).
Proof.
  intros Bd Bs Hov. induction fuel as [|f IH]; intros j m Hj Hf; [lia|].
  cbn [copy_down]. destruct (Z.leb_spec 0 j) as [L|L].
  - rewrite (addr_in d n) by (auto; lia). rewrite (addr_in s n) by (auto; lia).
    destruct (IH (j - 1) (store_byte m (d + j) (m (s + j)))) as (m' & E & A & B); [lia|lia|].
    exists m'. split; [exact E|]. split.
    + intros k Hk. destruct (Z.eq_dec k j) as [->|Hne].
      * rewrite B by lia. apply store_same.
      * rewrite A by lia. apply store_other. lia.
    + intros a Ha. rewrite B by lia. apply store_other. lia.
  - exists m. split; [reflexivity|]. split; [lia|auto].
Qed.

Lemma fill_up_spec test d x n : block d n -> (forall j, 0 <= j -> test j = (j <? n)) ->
  forall fuel j m, 0 <= j -> (Z.to_nat (n - j) < fuel)%nat ->
  exists m', fill_up fuel test d x j m = Some m' /\
    (forall k, j <= k < n -> m' (d + k) = x) /\
    (forall a, ~ (d + j <= a < d + n) -> m' a = m a).
Proof.
  intros Bd Ht. induction fuel as [|f IH]; intros j m Hj Hf; [lia|].
  cbn [fill_up]. rewrite Ht by exact Hj. destruct (Z.ltb_spec j n) as [L|L].
  - rewrite (addr_in d n) by (auto; lia).
    destruct (IH (j + 1) (store_byte m (d + j) x)) as (m' & E & A & B); [lia|lia|].
    exists m'. split; [exact E|]. split.
    + intros k Hk. destruct (Z.eq_dec k j) as [->|Hne].
      * rewrite B by lia. apply store_same.
      * apply A. lia.
    + intros a Ha. rewrite B by lia. apply store_other. lia.
  - exists m. split; [reflexivity|]. split; [lia|auto].
Qed.

(* more fuel changes nothing *)
Lemma copy_up_mono test d s : forall f f' j m m', copy_up f test d s j m = Some m' -> (f <= f')%nat ->
  copy_up f' test d s j m = Some m'.
Proof.
  induction f as [|f IH]; intros f' j m m' H L; [discriminate|]. destruct f' as [|f']; [lia|].
  cbn [copy_up] in *. destruct (test j); [apply IH; [exact H|lia]|exact H].
Qed.
Lemma copy_down_mono d s : forall f f' j m m', copy_down f d s j m = Some m' -> (f <= f')%nat ->
  copy_down f' d s j m = Some m'.
Proof.
  induction f as [|f IH]; intros f' j m m' H L; [discriminate|]. destruct f' as [|f']; [lia|].
  cbn [copy_down] in *. destruct (0 <=? j); [apply IH; [exact H|lia]|exact H].
Qed.
Lemma fill_up_mono test d x : forall f f' j m m', fill_up f test d x j m = Some m' -> (f <= f')%nat ->
  fill_up f' test d x j m = Some m'.
Proof.
  induction f as [|f IH]; intros f' j m m' H L; [discriminate|]. destruct f' as [|f']; [lia|].
  cbn [fill_up] in *. destruct (test j); [apply IH; [exact H|lia]|exact H].
Qed.

Lemma copy_up_moves test d s n m : block d n -> block s n -> (forall j, 0 <= j -> test j = (j <? n)) ->
  d <= s \/ s + n <= d ->
  exists N m', (forall fuel, (N <= fuel)%nat -> copy_up fuel test d s 0 m = Some m') /\ is_move m d s n m'.
Proof.
  intros Bd Bs Ht Hov.
  destruct (copy_up_spec test d s n Bd Bs Ht Hov (S (Z.to_nat (n - 0))) 0 m) as (m' & E & A & B); [lia|lia|].
  exists (S (Z.to_nat (n - 0))), m'. split; [intros fuel Hf; exact (copy_up_mono _ _ _ _ _ _ _ _ E Hf)|].
  split; [exact A|]. intros a Ha. apply B. lia.
Qed.

Lemma memcpy_move d s n m : block d n -> block s n -> d <= s \/ disjoint d n s n ->
  exists N m', (forall fuel, (N <= fuel)%nat -> memcpy fuel d s n m = Some m') /\ is_move m d s n m'.
Proof.
  intros Bd Bs Hov. unfold memcpy. destruct (Z.leb_spec n 0).
  - exists 1%nat, m. split.
    + intros [|fuel] Hf; [lia|]. cbn. destruct (Z.ltb_spec 0 n); [lia|reflexivity].
    + split; [lia|auto].
  - apply copy_up_moves; auto. destruct Hov as [|[|[|[]]]]; lia.
Qed.

Lemma memmove_test_move b test d s n m : 0 < b <= 64 -> - 2 ^ (b - 1) < n < 2 ^ (b - 1) -> block d n -> block s n ->
  (forall j, 0 <= j -> test j = (j <? n)) ->
  exists N m', (forall fuel, (N <= fuel)%nat -> memmove_test b fuel test d s n m = Some m') /\ is_move m d s n m'.
Proof.
  intros Hb Hn Bd Bs Ht. unfold memmove_test.
  assert (P : 2 ^ (b - 1) <= 2 ^ 63) by (apply Z.pow_le_mono_r; lia).
  change (2 ^ 63) with 9223372036854775808 in P.
  assert (R : forall x, wrapu 64 x = x mod 18446744073709551616) by reflexivity.
  pose proof Bd as [Bd1 Bd2]. pose proof Bs as [Bs1 Bs2]. 
  change (2 ^ 64) with 18446744073709551616 in *.
  destruct (Z.leb_spec (- 2 ^ (b - 1)) (n - 1)) as [_|]; [|lia].
  destruct (Z.leb_spec n 0) as [L|L].
  - (* nothing to copy *)
    exists 1%nat, m. split; [|split; [lia|auto]].
    intros [|fuel] Hf; [lia|]. destruct (_ <=? _).
    + cbn. rewrite Ht by lia. destruct (Z.ltb_spec 0 n); [lia|reflexivity].
    + cbn. destruct (Z.leb_spec 0 (n - 1)); [lia|reflexivity].
  - rewrite !R. rewrite (Z.mod_small n) by lia.
    destruct (Z.leb_spec s d) as [Q|Q].
    + rewrite Z.mod_small by lia. destruct (Z.leb_spec n (d - s)) as [X|X].
      * apply copy_up_moves; auto. lia.
      * destruct (copy_down_spec d s n Bd Bs Q (S (Z.to_nat (n - 1 + 1))) (n - 1) m) as (m' & E & A & B); [lia|lia|].
        exists (S (Z.to_nat (n - 1 + 1))), m'. split; [intros fuel Hf; exact (copy_down_mono _ _ _ _ _ _ _ E Hf)|].
        split; [intros k Hk; apply A; lia|]. intros a Ha. apply B. lia.
    + replace ((d - s) mod 18446744073709551616) with (d - s + 18446744073709551616).
      2:{ apply (Z.mod_unique_pos (d - s) 18446744073709551616 (-1)); lia. }
      destruct (Z.leb_spec n (d - s + 18446744073709551616)) as [X|X]; [|lia].
      apply copy_up_moves; auto. lia.
Qed.

Lemma memset_fill d x n m : block d n ->
  exists N m', (forall fuel, (N <= fuel)%nat -> memset fuel d x n m = Some m') /\ is_fill m d x n m'.
Proof.
  intros Bd. unfold memset.
  destruct (fill_up_spec (fun j => j <? n) d x n Bd (fun j _ => eq_refl) (S (Z.to_nat (n - 0))) 0 m)
    as (m' & E & A & B); [lia|lia|].
  exists (S (Z.to_nat (n - 0))), m'. split; [intros fuel Hf; exact (fill_up_mono _ _ _ _ _ _ _ _ E Hf)|].
  split; [exact A|]. intros a Ha. apply B. lia.
Qed.

(** ** Loops over the active lanes *)

Lemma extract_at {X} W (g : gang X) l : (l < W)%nat -> extract W g (Z.of_nat l) = Some (g l).
Proof.
  intros H. unfold extract. destruct (Z.leb_spec 0 (Z.of_nat l)); [|lia].
  destruct (Z.ltb_spec (Z.of_nat l) (Z.of_nat W)); [|lia]. cbn. now rewrite Nat2Z.id.
Qed.

Definition only_lane (W : nat) (l : nat) (im : gang bool) : Prop :=
  forall k, (k < W)%nat -> (im k = true <-> k = l).

Lemma each_active {St} W mask (body : nat -> Z -> gang bool -> St -> option St) (P : nat -> St -> St -> Prop) :
  (W <= 64)%nat -> running W mask <> [] ->
  (forall l im s, In l (running W mask) -> only_lane W l im ->
     exists N s', P l s s' /\ forall fuel, (N <= fuel)%nat -> body fuel (Z.of_nat l) im s = Some s') ->
  forall s, exists N s', (forall fuel, (N <= fuel)%nat -> foreach_active_do W mask (body fuel) fuel s = Some s') /\
    in_turn P (running W mask) s s'.
Proof.
  intros HW Hne HB s. destruct (foreach_active_events W HW mask Hne) as (N & evs & H1 & H2 & H3).
  assert (G : forall ls evs s, (forall l, In l ls -> In l (running W mask)) -> map av_index evs = map Z.of_nat ls ->
     Forall (fun ev => forall l, (l < W)%nat -> (av_mask ev l = true <-> Z.of_nat l = av_index ev)) evs ->
     exists N s', (forall fuel, (N <= fuel)%nat -> run_events (body fuel) evs s = Some s') /\ in_turn P ls s s').
  { clear -HB. induction ls as [|l ls IH]; intros evs s Hls Hix HF.
    - destruct evs; [|discriminate]. exists O, s. split; [reflexivity|reflexivity].
    - destruct evs as [|ev evs]; [discriminate|]. cbn in Hix. injection Hix as Hx Hix.
      inversion HF as [|? ? Hm HF']; subst.
      destruct (HB l (av_mask ev) s) as (N1 & s1 & P1 & B1).
      { apply Hls. now left. }
      { intros k Hk. rewrite Hm by exact Hk. rewrite Hx. lia. }
      destruct (IH evs s1) as (N2 & s' & R & T); auto.
      { intros k Hk. apply Hls. now right. }
      exists (N1 + N2)%nat, s'. split.
      + intros fuel Hf. cbn [run_events]. rewrite Hx, B1 by lia. apply R. lia.
      + exists s1. auto. }
  destruct (G (running W mask) evs s (fun l H => H) H2 H3) as (N2 & s' & R & T).
  exists (N + N2)%nat, s'. split; [|exact T].
  intros fuel Hf. unfold foreach_active_do.
  rewrite (foreach_active_mono W mask N fuel (evs, fun _ => true) H1) by lia. apply R. lia.
Qed.

Lemma load_spilled_at W mask p l : In l (running W mask) -> load_spilled W (spill mask p) (Z.of_nat l) = Some (p l).
Proof.
  intros H. apply running_In in H as [Hl Hm]. unfold load_spilled. rewrite (extract_at) by exact Hl.
  unfold spill. now rewrite Hm.
Qed.

Section Varying.
  Variables (W : nat) (mask : nat -> bool) (dst src count : nat -> Z).
  Hypothesis HW : (W <= 64)%nat.
  Hypothesis Hne : running W mask <> [].
  Hypothesis Hdst : forall l, In l (running W mask) -> block (dst l) (count l).

  Lemma memcpy_varying_moves m :
    (forall l, In l (running W mask) -> block (src l) (count l)) ->
    (forall l, In l (running W mask) -> dst l <= src l \/ disjoint (dst l) (count l) (src l) (count l)) ->
    exists N m', (forall fuel, (N <= fuel)%nat -> memcpy_varying W mask fuel dst src count m = Some m') /\
      in_turn (fun l m m' => is_move m (dst l) (src l) (count l) m') (running W mask) m m'.
  Proof.
    intros Hsrc Hov. unfold memcpy_varying.
    apply (each_active W mask (fun fuel i _ m => match load_spilled W (spill mask dst) i, load_spilled W (spill mask src) i, extract W count i with
       | Some d, Some s, Some c => copy_up fuel (fun j => j <? c) d s 0 m
       | _, _, _ => None
       end)); auto.
    intros l im s Hl Him. destruct (memcpy_move (dst l) (src l) (count l) s) as (N & m' & E & M); auto.
    exists N, m'. split; [exact M|]. intros fuel Hf. rewrite !load_spilled_at by exact Hl.
    assert ((l < W)%nat) by (apply running_In in Hl; tauto).
    rewrite (extract_at) by assumption. apply E. exact Hf.
  Qed.

  Lemma memmove_varying_moves b m : 0 < b <= 64 ->
    (forall l, In l (running W mask) -> block (src l) (count l)) ->
    (forall l, In l (running W mask) -> - 2 ^ (b - 1) < count l < 2 ^ (b - 1)) ->
    exists N m', (forall fuel, (N <= fuel)%nat -> memmove_varying b W mask fuel dst src count m = Some m') /\
      in_turn (fun l m m' => is_move m (dst l) (src l) (count l) m') (running W mask) m m'.
  Proof.
    intros Hb Hsrc Hc. unfold memmove_varying.
    apply (each_active W mask (fun fuel i im m => match load_spilled W (spill mask dst) i, load_spilled W (spill mask src) i, extract W count i with
       | Some d, Some s, Some c =>
           memmove_test b fuel (fun j => existsb (fun l => im l && (j <? count l)) (lanes W)) d s c m
       | _, _, _ => None
       end)); auto.
    intros l im s Hl Him. 
    assert (HlW : (l < W)%nat) by (apply running_In in Hl; tauto).
    destruct (memmove_test_move b (fun j => existsb (fun l => im l && (j <? count l)) (lanes W)) (dst l) (src l) (count l) s)
      as (N & m' & E & M); auto.
    { intros j Hj. apply eq_true_iff_eq. rewrite existsb_exists. split.
      - intros (k & Hk & Hk2). apply in_seq in Hk. apply andb_true_iff in Hk2 as [Hk2 Hk3].
        apply Him in Hk2; [|lia]. now subst.
      - intros H. exists l. split; [apply in_seq; lia|]. apply andb_true_iff. split; [now apply Him|exact H]. }
    exists N, m'. split; [exact M|]. intros fuel Hf. rewrite !load_spilled_at by exact Hl.
    rewrite (extract_at) by assumption. apply E. exact Hf.
  Qed.

  Lemma memset_varying_fills val m :
    exists N m', (forall fuel, (N <= fuel)%nat -> memset_varying W mask fuel dst val count m = Some m') /\
      in_turn (fun l m m' => is_fill m (dst l) (val l) (count l) m') (running W mask) m m'.
  Proof.
    unfold memset_varying.
    apply (each_active W mask (fun fuel i _ m => match load_spilled W (spill mask dst) i, extract W val i, extract W count i with
       | Some d, Some x, Some c => fill_up fuel (fun j => j <? c) d x 0 m
       | _, _, _ => None
       end)); auto.
    intros l im s Hl Him. destruct (memset_fill (dst l) (val l) (count l) s) as (N & m' & E & M); auto.
    exists N, m'. split; [exact M|]. intros fuel Hf. rewrite !load_spilled_at by exact Hl.
    assert ((l < W)%nat) by (apply running_In in Hl; tauto).
    rewrite !(extract_at) by assumption. apply E. exact Hf.
  Qed.
End Varying.

(* when no lane writes where another one reads or writes, every lane gets its own copy *)
Lemma in_turn_separate (dst src count : nat -> Z) : forall ls m m',
  NoDup ls ->
  (forall l k, In l ls -> In k ls -> l <> k ->
     disjoint (dst l) (count l) (dst k) (count k) /\ disjoint (dst l) (count l) (src k) (count k)) ->
  in_turn (fun l m m' => is_move m (dst l) (src l) (count l) m') ls m m' ->
  (forall l k, In l ls -> 0 <= k < count l -> m' (dst l + k) = m (src l + k)) /\
  (forall a, (forall l, In l ls -> ~ (dst l <= a < dst l + count l)) -> m' a = m a).
Proof.
  induction ls as [|l ls IH]; intros m m' ND Hd H.
  - cbn in H. subst. split; [intros l k []|auto].
  - destruct H as (m1 & [M1 M2] & H). inversion ND as [|? ? Hni ND']; subst.
    destruct (IH m1 m' ND') as [A B]; [intros; apply Hd; auto; now right|exact H|].
    split.
    + intros k j [<-|Hk] Hj.
      * rewrite B, M1 by (auto; intros k' Hk'; destruct (Hd l k') as [[|[|[]]] _]; try (now left); try (now right); try (intros ->; contradiction); lia).
        reflexivity.
      * rewrite A by auto. apply M2.
        destruct (Hd l k) as [_ [|[|[]]]]; try (now left); try (now right); try (intros ->; contradiction); lia.
    + intros a Ha. rewrite B by (intros; apply Ha; now right). apply M2. apply Ha. now left.
Qed.
