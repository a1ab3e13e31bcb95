(** Proofs about the shuffles of the x86 targets. *)
From Coq Require Import ZArith List Bool Lia.
From Verif Require Import LanesModel ShufModel ShufSpec.
Import ListNotations.
Local Open Scope Z_scope.

Lemma trunc_small : forall bits i, 8 <= bits -> 0 <= i < 256 -> trunc bits i = i.
Proof.
  intros bits i Hb Hi. unfold trunc. apply Z.mod_small.
  assert (2 ^ 8 <= 2 ^ Z.min bits 32) by (apply Z.pow_le_mono_r; lia).
  change (2 ^ 8) with 256 in H. lia.
Qed.

Lemma widen_in : forall W v j, 0 <= j < Z.of_nat W ->
  lane (widen W v) j = Some (v (Z.to_nat j)).
Proof.
  intros W v j Hj. unfold lane, widen.
  destruct (Nat.ltb_spec (Z.to_nat j) W); [reflexivity | lia].
Qed.

Lemma concat2_in : forall W a b j, 0 <= j < 2 * Z.of_nat W ->
  lane (concat2 W a b) j = Some (element2 W a b j).
Proof.
  intros W a b j Hj. unfold lane, concat2, element2.
  destruct (Nat.ltb_spec (Z.to_nat j) W); destruct (Z.ltb_spec j (Z.of_nat W)); try lia; [reflexivity|].
  destruct (Nat.ltb_spec (Z.to_nat j) (2 * W)); [|lia].
  do 2 f_equal. lia.
Qed.

(* [permvar] on an index that is in range. *)
Lemma permvar_in : forall n v idx l, 0 <= idx l < n -> permvar n v idx l = lane v (idx l).
Proof. intros n v idx l H. unfold permvar. now rewrite Z.mod_small. Qed.

Lemma pshufb_in : forall v idx l, 0 <= idx l < 16 -> pshufb v idx l = lane v (idx l).
Proof.
  intros v idx l H. unfold pshufb.
  rewrite (Z.mod_small (idx l) 256) by lia. rewrite (Z.mod_small (idx l) 16) by lia.
  destruct (Z.leb_spec 128 (idx l)); [lia | reflexivity].
Qed.

Lemma permi2_in : forall n a b idx l, 0 < n -> 0 <= idx l < 2 * n ->
  permi2 n a idx b l = if idx l <? n then lane a (idx l) else lane b (idx l - n).
Proof.
  intros n a b idx l Hn H. unfold permi2.
  destruct (Z.ltb_spec (idx l) n).
  - rewrite (Z.div_small (idx l) n) by lia. rewrite (Z.mod_small (idx l) n) by lia. reflexivity.
  - assert (idx l / n = 1) as -> by (symmetry; apply Z.div_unique with (idx l - n); lia).
    assert (idx l mod n = idx l - n) as -> by (symmetry; apply Z.mod_unique with 1; lia).
    reflexivity.
Qed.

Lemma halves_lane : forall bits n v perm l,
  halves bits n v perm l =
  permi2 (Z.of_nat n) v (fun l => trunc bits (perm l)) (upper n v) l.
Proof.
  intros. unfold halves, join. destruct (Nat.ltb_spec l n); [reflexivity|].
  unfold permi2, upper.
  replace (n + (l - n))%nat with l by lia. reflexivity.
Qed.

Lemma halves_in : forall bits n v perm l,
  8 <= bits -> (0 < n)%nat -> 2 * Z.of_nat n <= 256 -> 0 <= perm l < 2 * Z.of_nat n ->
  halves bits n v perm l = lane v (perm l).
Proof.
  intros bits n v perm l Hb Hn Hs Hp. rewrite halves_lane.
  rewrite permi2_in; rewrite ?trunc_small by lia; try lia.
  destruct (Z.ltb_spec (perm l) (Z.of_nat n)); [reflexivity|].
  unfold lane, upper. f_equal. lia.
Qed.

Lemma two_permd_in : forall v perm l, 0 <= perm l < 16 -> two_permd v perm l = lane v (perm l).
Proof.
  intros v perm l Hp. unfold two_permd, join, permvar, upper.
  assert (A : (if perm l <? 8 then lane v (perm l mod 8)
               else lane (fun l0 => v (8 + l0)%nat) (perm l mod 8)) = lane v (perm l)).
  { destruct (Z.ltb_spec (perm l) 8).
    - now rewrite Z.mod_small by lia.
    - assert (perm l mod 8 = perm l - 8) as -> by (symmetry; apply Z.mod_unique with 1; lia).
      unfold lane. f_equal. lia. }
  destruct (Nat.ltb_spec l 8); [exact A|].
  replace (8 + (l - 8))%nat with l by lia. exact A.
Qed.

Lemma via8 : forall x, 0 <= x < 2 ^ 8 -> (x mod 2 ^ 16) mod 2 ^ 8 = x.
Proof. intros x H. rewrite (Z.mod_small x (2 ^ 16)) by lia. now apply Z.mod_small. Qed.

(** ** One vector *)

(* An implementation that fits a gang of [W]. *)
Fixpoint fits (W : nat) (i : impl) : Prop :=
  match i with
  | IExtract | IGather => True
  | IPermvar bits n => 8 <= bits /\ Z.of_nat W <= n <= 256
  | IHalves bits n => 8 <= bits /\ (0 < n)%nat /\ (W = 2 * n)%nat /\ Z.of_nat W <= 256
  | IPshufb => (W <= 16)%nat
  | ITwoPermd => W = 16%nat
  | IVia16 j => fits W j
  end.

Fixpoint memory (i : impl) : bool :=
  match i with IGather => true | IVia16 j => memory j | _ => false end.

(* Elements that come through unchanged. *)
Fixpoint carries (i : impl) (x : Z) : Prop :=
  match i with IVia16 j => 0 <= x < 2 ^ 8 /\ carries j x | _ => True end.

Lemma carries_mod : forall j x, 0 <= x < 2 ^ 8 -> carries j x -> carries j (x mod 2 ^ 16).
Proof. intros j x H C. now rewrite Z.mod_small by lia. Qed.

Lemma run1_register : forall W i v perm, fits W i -> memory i = false ->
  exists r, run1 W i v perm = Done r /\
    forall l, 0 <= perm l < Z.of_nat W -> carries i (v (Z.to_nat (perm l))) ->
      r l = Some (v (Z.to_nat (perm l))).
Proof.
  intros W i. induction i as [|bits n|bits n| | | |j IH]; intros v perm F M; cbn in M; try discriminate;
    cbn [run1].
  - eexists. split; [reflexivity|]. intros l Hp _. unfold extract.
    destruct (Z.leb_spec 0 (perm l)); destruct (Z.ltb_spec (perm l) (Z.of_nat W)); cbn; try lia.
    reflexivity.
  - destruct F as [Hb Hn]. eexists. split; [reflexivity|]. intros l Hp _.
    rewrite permvar_in; rewrite trunc_small by lia; [now apply widen_in | lia].
  - destruct F as (Hb & Hn & HW & Hs). eexists. split; [reflexivity|]. intros l Hp _.
    rewrite halves_in by lia. now apply widen_in.
  - cbn in F. eexists. split; [reflexivity|]. intros l Hp _.
    rewrite pshufb_in; rewrite trunc_small by lia; [now apply widen_in | lia].
  - cbn in F. eexists. split; [reflexivity|]. intros l Hp _.
    rewrite two_permd_in by lia. now apply widen_in.
  - destruct (IH (fun l => v l mod 2 ^ 16) perm F M) as (r & -> & Hr).
    eexists. split; [reflexivity|]. intros l Hp [Hx C]. cbn beta.
    rewrite Hr; [| exact Hp | cbn beta; now apply carries_mod].
    cbn [option_map]. f_equal. now apply via8.
Qed.

Lemma gather_ok : forall n W v perm, (forall l, (l < W)%nat -> 0 <= perm l < Z.of_nat n) ->
  gather_stack n W v perm = Done (fun l => Some (v (Z.to_nat (perm l)))).
Proof.
  intros n W v perm H. unfold gather_stack.
  assert (forallb (fun l => (0 <=? perm l) && (perm l <? Z.of_nat n)) (lanes W) = true) as ->.
  { apply forallb_forall. intros l Hl. apply in_seq in Hl.
    specialize (H l ltac:(lia)). apply andb_true_iff. split; [apply Z.leb_le | apply Z.ltb_lt]; lia. }
  reflexivity.
Qed.

Lemma gather_fault : forall n W v perm,
  gather_stack n W v perm = Fault <-> exists l, (l < W)%nat /\ ~ (0 <= perm l < Z.of_nat n).
Proof.
  intros n W v perm. unfold gather_stack.
  destruct (forallb _ (lanes W)) eqn:E.
  - split; [discriminate|]. intros (l & Hl & N).
    rewrite forallb_forall in E. specialize (E l ltac:(apply in_seq; lia)).
    apply andb_true_iff in E. destruct E as [E1 E2].
    apply Z.leb_le in E1. apply Z.ltb_lt in E2. lia.
  - split; [intros _|reflexivity].
    assert (~ forall l, In l (lanes W) -> (0 <=? perm l) && (perm l <? Z.of_nat n) = true) as N.
    { intros A. rewrite <- forallb_forall in A. congruence. }
    clear E. unfold lanes in N.
    assert (forall k s, (~ forall l, In l (seq s k) ->
              (0 <=? perm l) && (perm l <? Z.of_nat n) = true) ->
            exists l, (s <= l < s + k)%nat /\ ~ (0 <= perm l < Z.of_nat n)) as G.
    { intros k0. induction k0 as [|k0 IH]; intros s A.
      - exfalso. apply A. intros l [].
      - destruct ((0 <=? perm s) && (perm s <? Z.of_nat n)) eqn:E.
        + destruct (IH (S s)) as (l & Hl & Q).
          * intros B. apply A. intros l [->|Hl]; [exact E | now apply B].
          * exists l. split; [lia | exact Q].
        + exists s. split; [lia|]. intros [Q1 Q2].
          apply andb_false_iff in E. destruct E as [E|E];
            [apply Z.leb_gt in E | apply Z.ltb_ge in E]; lia. }
    destruct (G W 0%nat N) as (l & Hl & Q). exists l. split; [lia | exact Q].
Qed.

Lemma target_fits : forall t e, fits (width t) (shuffle_impl t e).
Proof. intros [] []; cbn; lia. Qed.

Lemma target_memory : forall t e, memory (shuffle_impl t e) = through_memory t e.
Proof. now intros [] []. Qed.

Lemma target_gather : forall t e, through_memory t e = true -> shuffle_impl t e = IGather.
Proof. intros [] []; cbn; congruence. Qed.

Lemma target_carries : forall t e x, 0 <= x < 2 ^ bits_of e -> carries (shuffle_impl t e) x.
Proof. intros [] [] x H; cbn in *; tauto. Qed.

Lemma shuffle_running : forall t e v perm,
  through_memory t e = false -> elements (bits_of e) (width t) v ->
  exists r, x86_shuffle t e v perm = Done r /\
    forall l, 0 <= perm l < Z.of_nat (width t) -> r l = Some (v (Z.to_nat (perm l))).
Proof.
  intros t e v perm M E. rewrite <- target_memory in M.
  destruct (run1_register (width t) _ v perm (target_fits t e) M) as (r & R & H).
  exists r. split; [exact R|]. intros l Hp. apply H; [exact Hp|].
  apply target_carries, E. lia.
Qed.

Lemma shuffle_all : forall t e v perm,
  elements (bits_of e) (width t) v ->
  (forall l, (l < width t)%nat -> 0 <= perm l < Z.of_nat (width t)) ->
  exists r, x86_shuffle t e v perm = Done r /\
    forall l, (l < width t)%nat -> r l = Some (v (Z.to_nat (perm l))).
Proof.
  intros t e v perm E H. destruct (through_memory t e) eqn:M.
  - unfold x86_shuffle. rewrite (target_gather t e M). cbn [run1].
    rewrite gather_ok by exact H. eexists. split; reflexivity.
  - destruct (shuffle_running t e v perm M E) as (r & R & Q). exists r. split; [exact R|].
    intros l Hl. apply Q. now apply H.
Qed.

Lemma shuffle_fault : forall t e v perm,
  x86_shuffle t e v perm = Fault <->
  through_memory t e = true /\
  exists l, (l < width t)%nat /\ ~ (0 <= perm l < Z.of_nat (width t)).
Proof.
  intros t e v perm. destruct (through_memory t e) eqn:M.
  - unfold x86_shuffle. rewrite (target_gather t e M). cbn [run1].
    rewrite gather_fault. tauto.
  - split; [|intros [? _]; discriminate]. intros F. rewrite <- target_memory in M.
    destruct (run1_register (width t) _ v perm (target_fits t e) M) as (r & R & _).
    unfold x86_shuffle in F. congruence.
Qed.

(** ** Two vectors *)

Fixpoint fits2 (W : nat) (i : impl2) : Prop :=
  match i with
  | I2Stack => True
  | I2Permvar bits n => 8 <= bits /\ 2 * Z.of_nat W <= n <= 256
  | I2Permi2 bits => 8 <= bits /\ (0 < W)%nat /\ 2 * Z.of_nat W <= 256
  | I2Pshufb => (2 * W <= 16)%nat
  | I2TwoShuffles j => fits W j /\ memory j = false /\ (forall x, carries j x) /\ Z.of_nat W <= 256
  | I2Via16 j => fits2 W j
  end.

Fixpoint memory2 (i : impl2) : bool :=
  match i with I2Stack => true | I2Via16 j => memory2 j | _ => false end.

Fixpoint carries2 (i : impl2) (x : Z) : Prop :=
  match i with I2Via16 j => 0 <= x < 2 ^ 8 /\ carries2 j x | _ => True end.

Lemma element2_mod : forall W a b i,
  element2 W (fun l => a l mod 2 ^ 16) (fun l => b l mod 2 ^ 16) i = element2 W a b i mod 2 ^ 16.
Proof. intros. unfold element2. now destruct (i <? Z.of_nat W). Qed.

Lemma run2_register : forall W i a b perm, fits2 W i -> memory2 i = false ->
  exists r, run2 W i a b perm = Done r /\
    forall l, 0 <= perm l < 2 * Z.of_nat W -> carries2 i (element2 W a b (perm l)) ->
      r l = Some (element2 W a b (perm l)).
Proof.
  intros W i. induction i as [|bits n|bits| |j|j IH]; intros a b perm F M; cbn in M; try discriminate;
    cbn [run2].
  - destruct F as [Hb Hn]. eexists. split; [reflexivity|]. intros l Hp _.
    rewrite permvar_in; rewrite trunc_small by lia; [now apply concat2_in | lia].
  - destruct F as (Hb & HW & Hs). eexists. split; [reflexivity|]. intros l Hp _.
    rewrite permi2_in; rewrite ?trunc_small by lia; try lia.
    unfold element2. destruct (Z.ltb_spec (perm l) (Z.of_nat W)); apply widen_in; lia.
  - cbn in F. eexists. split; [reflexivity|]. intros l Hp _.
    rewrite pshufb_in; rewrite trunc_small by lia; [now apply concat2_in | lia].
  - destruct F as (F & Mj & C & Hs).
    destruct (run1_register W j a perm F Mj) as (r1 & -> & H1).
    destruct (run1_register W j b (fun l => wrap32 (perm l - Z.of_nat W)) F Mj) as (r2 & -> & H2).
    eexists. split; [reflexivity|]. intros l Hp _. cbn beta. unfold element2.
    destruct (Z.ltb_spec (perm l) (Z.of_nat W)).
    + apply H1; [lia | apply C].
    + assert (X : wrap32 (perm l - Z.of_nat W) = perm l - Z.of_nat W).
      { unfold wrap32. rewrite Z.mod_small by lia. lia. }
      cbn beta in H2. specialize (H2 l). rewrite X in H2. apply H2; [lia | apply C].
  - destruct (IH (fun l => a l mod 2 ^ 16) (fun l => b l mod 2 ^ 16) perm F M) as (r & -> & Hr).
    eexists. split; [reflexivity|]. intros l Hp [Hx C]. cbn beta.
    rewrite Hr; rewrite ?element2_mod; [| exact Hp | now rewrite Z.mod_small by lia].
    cbn [option_map]. f_equal. now apply via8.
Qed.

Lemma target_fits2 : forall t e, fits2 (width t) (shuffle2_impl t e).
Proof. intros [] []; cbn; repeat split; lia. Qed.

Lemma target_memory2 : forall t e, memory2 (shuffle2_impl t e) = through_memory2 t e.
Proof. now intros [] []. Qed.

Lemma target_stack : forall t e, through_memory2 t e = true -> shuffle2_impl t e = I2Stack.
Proof. intros [] []; cbn; congruence. Qed.

Lemma target_carries2 : forall t e x, 0 <= x < 2 ^ bits_of e -> carries2 (shuffle2_impl t e) x.
Proof. intros [] [] x H; cbn in *; tauto. Qed.

Lemma shuffle2_running : forall t e a b perm,
  through_memory2 t e = false -> elements (bits_of e) (width t) a -> elements (bits_of e) (width t) b ->
  exists r, x86_shuffle2 t e a b perm = Done r /\
    forall l, 0 <= perm l < 2 * Z.of_nat (width t) -> r l = Some (element2 (width t) a b (perm l)).
Proof.
  intros t e a b perm M Ea Eb. rewrite <- target_memory2 in M.
  destruct (run2_register (width t) _ a b perm (target_fits2 t e) M) as (r & R & H).
  exists r. split; [exact R|]. intros l Hp. apply H; [exact Hp|].
  apply target_carries2. unfold element2.
  destruct (Z.ltb_spec (perm l) (Z.of_nat (width t))); [apply Ea | apply Eb]; lia.
Qed.

Lemma stack_element : forall W a b i, 0 <= i ->
  (if Nat.ltb (Z.to_nat i) W then a (Z.to_nat i) else b (Z.to_nat i - W)%nat) = element2 W a b i.
Proof.
  intros W a b i H. unfold element2.
  destruct (Nat.ltb_spec (Z.to_nat i) W); destruct (Z.ltb_spec i (Z.of_nat W)); try lia.
  f_equal. lia.
Qed.

Lemma shuffle2_all : forall t e a b perm,
  elements (bits_of e) (width t) a -> elements (bits_of e) (width t) b ->
  (forall l, (l < width t)%nat -> 0 <= perm l < 2 * Z.of_nat (width t)) ->
  exists r, x86_shuffle2 t e a b perm = Done r /\
    forall l, (l < width t)%nat -> r l = Some (element2 (width t) a b (perm l)).
Proof.
  intros t e a b perm Ea Eb H. destruct (through_memory2 t e) eqn:M.
  - unfold x86_shuffle2. rewrite (target_stack t e M). cbn [run2].
    rewrite gather_ok.
    + eexists. split; [reflexivity|]. intros l Hl. cbn beta. f_equal. apply stack_element.
      apply H. exact Hl.
    + intros l Hl. specialize (H l Hl). lia.
  - destruct (shuffle2_running t e a b perm M Ea Eb) as (r & R & Q). exists r. split; [exact R|].
    intros l Hl. apply Q. now apply H.
Qed.

Lemma shuffle2_fault : forall t e a b perm,
  x86_shuffle2 t e a b perm = Fault <->
  through_memory2 t e = true /\
  exists l, (l < width t)%nat /\ ~ (0 <= perm l < 2 * Z.of_nat (width t)).
Proof.
  intros t e a b perm. destruct (through_memory2 t e) eqn:M.
  - unfold x86_shuffle2. rewrite (target_stack t e M). cbn [run2].
    rewrite gather_fault. rewrite Nat2Z.inj_mul. change (Z.of_nat 2) with 2. tauto.
  - split; [|intros [? _]; discriminate]. intros F. rewrite <- target_memory2 in M.
    destruct (run2_register (width t) _ a b perm (target_fits2 t e) M) as (r & R & _).
    unfold x86_shuffle2 in F. congruence.
Qed.
