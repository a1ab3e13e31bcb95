(** Proofs about the simplification of masked operations (C36). *)

From Coq Require Import ZArith List Bool Lia.
From Verif Require Import Bits MaskModel MaskSpec AddrModel AddrProofs3.
Import ListNotations.
Open Scope Z_scope.

Lemma lor_pow2_testbit x i k : 0 <= i -> 0 <= k ->
  Z.testbit (Z.lor x (2 ^ i)) k = Z.testbit x k || (k =? i).
Proof.
  intros Hi Hk. rewrite Z.lor_spec. f_equal. rewrite Z.pow2_bits_eqb by lia. apply Z.eqb_sym.
Qed.

Lemma mask_bits_spec l : forall i, 0 <= i ->
  let '(m, u) := mask_bits i l in
  0 <= m /\ 0 <= u /\
  forall k, 0 <= k ->
    Z.testbit m k = (i <=? k) && match nth_error l (Z.to_nat (k - i)) with
                                 | Some c => negb (is_undef c) && high c
                                 | None => false end /\
    Z.testbit u k = (i <=? k) && match nth_error l (Z.to_nat (k - i)) with
                                 | Some c => is_undef c
                                 | None => false end.
Proof.
  induction l as [|c l IH]; intros i Hi; cbn [mask_bits].
  - repeat split; try lia; rewrite Z.testbit_0_l; destruct (Z.to_nat (k - i)); cbn; rewrite andb_false_r; reflexivity.
  - specialize (IH (i + 1) ltac:(lia)). destruct (mask_bits (i + 1) l) as [m u].
    destruct IH as (Pm & Pu & IH).
    assert (P2 : 0 <= 2 ^ i) by (apply Z.pow_nonneg; lia).
    assert (St : forall k, 0 <= k -> i + 1 <= k -> Z.to_nat (k - i) = S (Z.to_nat (k - (i + 1)))) by (intros; lia).
    assert (C : forall k, 0 <= k -> (k = i \/ k < i \/ i + 1 <= k)) by lia.
    destruct (is_undef c) eqn:U.
    + split; [exact Pm|]. split; [apply Z.lor_nonneg; lia|]. intros k Hk.
      destruct (IH k Hk) as [A B]. rewrite lor_pow2_testbit, A, B by lia.
      destruct (C k Hk) as [->|[L|L]].
      * rewrite (proj2 (Z.leb_gt (i + 1) i)), Z.leb_refl, Z.sub_diag, Z.eqb_refl by lia.
        cbn. rewrite U. split; reflexivity.
      * rewrite (proj2 (Z.leb_gt (i + 1) k)), (proj2 (Z.leb_gt i k)), (proj2 (Z.eqb_neq k i)) by lia.
        split; reflexivity.
      * rewrite (proj2 (Z.leb_le (i + 1) k)), (proj2 (Z.leb_le i k)), (proj2 (Z.eqb_neq k i)) by lia.
        rewrite (St k Hk L), orb_false_r. split; reflexivity.
    + assert (Q : forall x, (if high c then Z.lor x (2 ^ i) else x) = if high c then Z.lor x (2 ^ i) else x) by reflexivity.
      split; [destruct (high c); [apply Z.lor_nonneg; lia|exact Pm]|]. split; [exact Pu|]. intros k Hk.
      destruct (IH k Hk) as [A B].
      assert (X : Z.testbit (if high c then Z.lor m (2 ^ i) else m) k = Z.testbit m k || (high c && (k =? i))).
      { destruct (high c); [rewrite lor_pow2_testbit by lia; reflexivity|rewrite orb_false_r; reflexivity]. }
      rewrite X, A, B. destruct (C k Hk) as [->|[L|L]].
      * rewrite (proj2 (Z.leb_gt (i + 1) i)), Z.leb_refl, Z.sub_diag, Z.eqb_refl by lia.
        cbn. rewrite U, andb_true_r. split; reflexivity.
      * rewrite (proj2 (Z.leb_gt (i + 1) k)), (proj2 (Z.leb_gt i k)), (proj2 (Z.eqb_neq k i)) by lia.
        rewrite andb_false_r. split; reflexivity.
      * rewrite (proj2 (Z.leb_le (i + 1) k)), (proj2 (Z.leb_le i k)), (proj2 (Z.eqb_neq k i)) by lia.
        rewrite (St k Hk L), andb_false_r, orb_false_r. split; reflexivity.
Qed.

Lemma no_expr l i c : existsb is_expr l = false -> nth_error l i = Some c -> is_expr c = false.
Proof.
  intros E N. destruct (is_expr c) eqn:X; [|reflexivity].
  rewrite <- E. symmetry. apply existsb_exists. exists c. split; [eapply nth_error_In, N|exact X].
Qed.

Lemma bits_spec m b : get_mask m = Bits b -> 0 <= b /\
  exists pick, forall i, Z.testbit b (Z.of_nat i) = Nat.ltb i (lanes m) && on pick m i.
Proof.
  destruct m as [l|n|n]; cbn [get_mask]; try discriminate.
  - destruct (existsb is_expr l) eqn:E; [discriminate|].
    destruct (64 <? Z.of_nat (length l)); [discriminate|]. intro H. injection H as <-.
    unfold elements_to_mask. pose proof (mask_bits_spec l 0 ltac:(lia)) as S.
    destruct (mask_bits 0 l) as [m u]. destruct S as (Pm & Pu & S).
    split; [destruct (m =? 0); [exact Pm|apply Z.lor_nonneg; lia]|].
    exists (fun _ => negb (m =? 0)). intro i. destruct (S (Z.of_nat i) ltac:(lia)) as [A B].
    rewrite Z.sub_0_r, Nat2Z.id in A, B. rewrite (proj2 (Z.leb_le 0 (Z.of_nat i))) in A, B by lia.
    cbn [andb] in A, B. cbn [lanes on].
    assert (R : Z.testbit (if m =? 0 then m else Z.lor m u) (Z.of_nat i) =
                Z.testbit m (Z.of_nat i) || (negb (m =? 0) && Z.testbit u (Z.of_nat i))).
    { destruct (m =? 0); [rewrite orb_false_r; reflexivity|apply Z.lor_spec]. }
    rewrite R, A, B. destruct (nth_error l i) as [c|] eqn:N.
    + rewrite (proj2 (Nat.ltb_lt i (length l))) by (apply nth_error_Some; rewrite N; discriminate).
      pose proof (no_expr l i c E N) as X.
      destruct c; cbn [is_undef is_expr high negb andb] in *; try discriminate;
        rewrite ?andb_false_r, ?andb_true_r, ?orb_false_r, ?orb_false_l; reflexivity.
    + rewrite (proj2 (Nat.ltb_ge i (length l))) by (apply nth_error_None, N).
      rewrite andb_false_r. reflexivity.
  - intro H. injection H as <-. split; [lia|]. exists (fun _ => false). intro i.
    rewrite Z.testbit_0_l, andb_false_r. reflexivity.
Qed.

Lemma nonneg_zero b : 0 <= b -> (forall i : nat, Z.testbit b (Z.of_nat i) = false) -> b = 0.
Proof.
  intros P H. apply Z.bits_inj'. intros k Hk. rewrite Z.testbit_0_l.
  rewrite <- (Z2Nat.id k Hk). apply H.
Qed.

(** The mask found, for some choice of the undef elements. *)
Lemma status_on vw m : (lanes m <= vw)%nat -> mask_status vw m = AllOn ->
  exists pick, forall i, (i < lanes m)%nat -> on pick m i = true.
Proof.
  intros L. unfold mask_status. destruct (get_mask m) as [| |b] eqn:G; try discriminate.
  destruct (bits_spec m b G) as (P & pick & S).
  destruct (b =? 0); [discriminate|]. destruct (forallb _ _) eqn:F; [|discriminate]. intros _.
  exists pick. intros i Hi. rewrite forallb_forall in F.
  specialize (F i ltac:(apply in_seq; lia)). rewrite S in F.
  apply andb_true_iff in F. apply F.
Qed.

Lemma status_off vw m : mask_status vw m = AllOff ->
  exists pick, forall i, (i < lanes m)%nat -> on pick m i = false.
Proof.
  unfold mask_status. destruct (get_mask m) as [| |b] eqn:G; try discriminate.
  destruct (bits_spec m b G) as (P & pick & S).
  destruct (b =? 0) eqn:B; [|destruct (forallb _ _); discriminate]. intros _.
  apply Z.eqb_eq in B. subst b. exists pick. intros i Hi. specialize (S i).
  rewrite Z.testbit_0_l, (proj2 (Nat.ltb_lt i (lanes m)) Hi) in S. symmetry. exact S.
Qed.

Lemma on_known m p q i : known m -> (i < lanes m)%nat ->
  match m with MOther _ => False | _ => True end -> on p m i = on q m i.
Proof.
  destruct m as [l|n|n]; cbn [known lanes on]; intros K L X; [|reflexivity|destruct X].
  destruct (nth_error l i) as [c|] eqn:N; [|apply nth_error_None in N; lia].
  specialize (K c (nth_error_In _ _ N)). destruct c; tauto.
Qed.

Lemma simplify_ok vw m before : (lanes m <= vw)%nat ->
  exists pick, forall i, (i < lanes m)%nat ->
    mask_after (simplify vw m) (on before m) i = on pick m i.
Proof.
  intro L. unfold simplify.
  destruct (mask_status vw m) eqn:E; cbn [by_status mask_after];
    try (exists before; intros; reflexivity).
  - destruct (status_on vw m L E) as [p H]. exists p. intros i Hi. rewrite (H i Hi). reflexivity.
  - destruct (status_off vw m E) as [p H]. exists p. intros i Hi. rewrite (H i Hi). reflexivity.
Qed.

(** With all elements given there is no choice. *)
Lemma simplify_known vw m pick : (lanes m <= vw)%nat -> known m ->
  forall i, (i < lanes m)%nat -> mask_after (simplify vw m) (on pick m) i = on pick m i.
Proof.
  intros L K i Hi. unfold simplify.
  destruct (mask_status vw m) eqn:E; cbn [by_status mask_after]; try reflexivity.
  - destruct (status_on vw m L E) as [p H]. unfold all_on. rewrite <- (H i Hi). apply on_known; try assumption.
    destruct m; try exact Logic.I. discriminate E.
  - destruct (status_off vw m E) as [p H]. unfold all_off. rewrite <- (H i Hi). apply on_known; try assumption.
    destruct m; try exact Logic.I. discriminate E.
Qed.

(** The effect of an operation depends on the mask of its lanes only. *)
Lemma selected_ext {A} n p q (a b : nat -> A) : (forall i, (i < n)%nat -> p i = q i) ->
  selected n p a b = selected n q a b.
Proof. intro H. apply map_ext_in. intros i I. apply in_seq in I. rewrite H by lia. reflexivity. Qed.

Lemma stored_ext n p q mem a v : (forall i, (i < n)%nat -> p i = q i) ->
  forall x, stored n p mem a v x = stored n q mem a v x.
Proof.
  intros H x. unfold stored.
  destruct ((a <=? x) && (x <? a + Z.of_nat n)) eqn:E; [|reflexivity].
  apply andb_true_iff in E. rewrite Z.leb_le, Z.ltb_lt in E. rewrite H by lia. reflexivity.
Qed.

Lemma accessed_ext n p q a : (forall i, (i < n)%nat -> p i = q i) -> accessed n p a = accessed n q a.
Proof.
  intro H. unfold accessed. f_equal.
  assert (G : forall l, (forall i, In i l -> (i < n)%nat) -> filter p l = filter q l).
  { induction l as [|i l IH]; intro Hl; [reflexivity|]. cbn [filter].
    rewrite (H i (Hl i (or_introl eq_refl))), IH by (intros j J; apply Hl; right; exact J). reflexivity. }
  apply G. intros i I. apply in_seq in I. lia.
Qed.

(** movmsk *)
Lemma movmsk_bits n on : 0 <= movmsk n on /\
  forall k, 0 <= k -> Z.testbit (movmsk n on) k = Nat.ltb (Z.to_nat k) n && on (Z.to_nat k).
Proof.
  unfold movmsk.
  assert (G : forall n s, 0 <= fold_right Z.add 0 (map (fun i => if on i then 2 ^ Z.of_nat i else 0) (seq s n)) /\
    (exists q, fold_right Z.add 0 (map (fun i => if on i then 2 ^ Z.of_nat i else 0) (seq s n)) = q * 2 ^ Z.of_nat s) /\
    forall k, 0 <= k -> Z.testbit (fold_right Z.add 0 (map (fun i => if on i then 2 ^ Z.of_nat i else 0) (seq s n))) k
      = Nat.leb s (Z.to_nat k) && Nat.ltb (Z.to_nat k) (s + n) && on (Z.to_nat k)).
  { clear n. induction n as [|n IH]; intro s; cbn [seq map fold_right].
    - split; [lia|]. split; [exists 0; lia|]. intros k Hk. rewrite Z.testbit_0_l.
      destruct (Nat.leb_spec s (Z.to_nat k)), (Nat.ltb_spec (Z.to_nat k) (s + 0)); cbn; try reflexivity; lia.
    - destruct (IH (S s)) as (P & [q Q] & B).
      set (r := fold_right Z.add 0 (map (fun i => if on i then 2 ^ Z.of_nat i else 0) (seq (S s) n))) in *.
      assert (P2 : 0 < 2 ^ Z.of_nat s) by (apply pow2_pos; lia).
      assert (Q2 : r = q * 2 * 2 ^ Z.of_nat s).
      { rewrite Q, Nat2Z.inj_succ, Z.pow_succ_r by lia. ring. }
      split; [destruct (on s); lia|].
      split; [exists ((if on s then 1 else 0) + q * 2); rewrite Q2; destruct (on s); ring|].
      intros k Hk.
      assert (E : (if on s then 2 ^ Z.of_nat s else 0) + r = Z.lor r (if on s then 2 ^ Z.of_nat s else 0)).
      { destruct (on s); [|rewrite Z.lor_0_r; lia].
        rewrite Z.lor_comm. symmetry. rewrite <- Z.lxor_lor.
        - symmetry. apply Z.add_nocarry_lxor. apply Z.bits_inj'. intros j Hj.
          rewrite Z.land_spec, Z.pow2_bits_eqb, Z.testbit_0_l by lia.
          destruct (Z.eqb_spec (Z.of_nat s) j) as [<-|]; [|reflexivity].
          rewrite (B (Z.of_nat s)) by lia. rewrite Nat2Z.id.
          destruct (Nat.leb_spec (S s) s); [lia|]. reflexivity.
        - apply Z.bits_inj'. intros j Hj.
          rewrite Z.land_spec, Z.pow2_bits_eqb, Z.testbit_0_l by lia.
          destruct (Z.eqb_spec (Z.of_nat s) j) as [<-|]; [|reflexivity].
          rewrite (B (Z.of_nat s)) by lia. rewrite Nat2Z.id.
          destruct (Nat.leb_spec (S s) s); [lia|]. reflexivity. }
      rewrite E, Z.lor_spec, (B k Hk).
      assert (T : Z.testbit (if on s then 2 ^ Z.of_nat s else 0) k = on s && (k =? Z.of_nat s)).
      { destruct (on s); [|apply Z.testbit_0_l]. rewrite Z.pow2_bits_eqb by lia. apply Z.eqb_sym. }
      rewrite T.
      destruct (Z.eqb_spec k (Z.of_nat s)) as [->|Ne].
      + rewrite Nat2Z.id, andb_true_r.
        destruct (Nat.leb_spec (S s) s); [lia|]. destruct (Nat.leb_spec s s); [|lia].
        destruct (Nat.ltb_spec s (s + S n)); [|lia]. reflexivity.
      + rewrite andb_false_r, orb_false_r. f_equal.
        destruct (Nat.leb_spec (S s) (Z.to_nat k)), (Nat.leb_spec s (Z.to_nat k)),
          (Nat.ltb_spec (Z.to_nat k) (S s + n)), (Nat.ltb_spec (Z.to_nat k) (s + S n)); try reflexivity; lia. }
  destruct (G n 0%nat) as (A & _ & B). split; [exact A|]. intros k Hk. rewrite (B k Hk). reflexivity.
Qed.

Lemma movmsk_ok bits m b : 0 <= bits -> Z.of_nat (lanes m) <= bits -> simplify_movmsk bits m = Some b ->
  exists pick, b = movmsk (lanes m) (on pick m).
Proof.
  intros H0 L. unfold simplify_movmsk. destruct (get_mask m) as [| |x] eqn:G; try discriminate.
  intro H. injection H as <-. destruct (bits_spec m x G) as (P & pick & S). exists pick.
  destruct (movmsk_bits (lanes m) (on pick m)) as [Q B].
  apply Z.bits_inj'. intros k Hk. rewrite (B k Hk).
  specialize (S (Z.to_nat k)). rewrite Z2Nat.id in S by exact Hk.
  destruct (Z.lt_ge_cases k bits) as [Lk|Gk].
  - rewrite testbit_wrapu by lia. exact S.
  - rewrite testbit_wrapu_high by lia.
    destruct (Nat.ltb_spec (Z.to_nat k) (lanes m)); [lia|reflexivity].
Qed.

(** ** ReplaceMaskedMemOps *)

Lemma is_pow2_spec n : is_pow2 n = true -> exists k, n = (2 ^ k)%nat.
Proof.
  unfold is_pow2. intro H. apply andb_true_iff in H. destruct H as [P H]. apply Z.ltb_lt in P.
  destruct (pow2_or_zero_spec (Z.of_nat n - 1)) as (k & Hk & E); [lia| |].
  { unfold pow2_or_zero. rewrite Z.sub_add. exact H. }
  rewrite Z.sub_add in E.
  exists (Z.to_nat k). apply Nat2Z.inj. rewrite E, Nat2Z.inj_pow, Z2Nat.id by exact Hk. reflexivity.
Qed.

Lemma prefix_on l : bools l -> forall i, (i < true_prefix l)%nat -> nth_error l i = Some (MInt 1 1).
Proof.
  induction l as [|c l IH]; intros B i Hi; [cbn in Hi; lia|].
  destruct (B c (or_introl eq_refl)) as [->| ->]; cbn in Hi; [lia|].
  destruct i as [|i]; [reflexivity|]. cbn [nth_error].
  apply IH; [|lia]. intros x X. apply B. right. exact X.
Qed.

Lemma prefix_stop l : bools l -> (true_prefix l <= length l)%nat /\
  ((true_prefix l < length l)%nat -> nth_error l (true_prefix l) = Some (MInt 1 0)).
Proof.
  induction l as [|c l IH]; intro B; [cbn; split; [lia|lia]|].
  destruct (B c (or_introl eq_refl)) as [->| ->]; cbn.
  - split; [lia|reflexivity].
  - destruct IH as [I1 I2]; [intros x X; apply B; right; exact X|].
    split; [lia|]. intro H. apply I2. lia.
Qed.

Lemma check_mask_ok l k pick : bools l -> check_mask (MVec l) = Some k ->
  (k <= length l)%nat /\ (exists a, length l = 2 ^ a)%nat /\ (k = 3 \/ exists b, k = 2 ^ b)%nat /\
  forall i, (i < length l)%nat -> on pick (MVec l) i = Nat.ltb i k.
Proof.
  intros B. cbn [check_mask]. destruct (is_pow2 (length l)) eqn:P; [|discriminate].
  destruct (zeros_after l (true_prefix l) && _) eqn:Z0; [|discriminate]. intro H. injection H as <-.
  apply andb_true_iff in Z0. destruct Z0 as [Zs Pw].
  destruct (prefix_stop l B) as [L St].
  split; [exact L|]. split; [apply is_pow2_spec, P|].
  split.
  { apply orb_true_iff in Pw. destruct Pw as [Pw|Pw]; [right; apply is_pow2_spec, Pw|left].
    apply Nat.eqb_eq, Pw. }
  intros i Hi. cbn [on]. destruct (Nat.ltb_spec i (true_prefix l)) as [Lt|Ge].
  - rewrite (prefix_on l B i Lt). reflexivity.
  - destruct (Nat.eq_dec i (true_prefix l)) as [->|Ne].
    + rewrite (St Hi). reflexivity.
    + destruct (nth_error l i) as [c|] eqn:N; [|apply nth_error_None in N; lia].
      unfold zeros_after in Zs. rewrite forallb_forall in Zs.
      specialize (Zs c).
      assert (I : In c (skipn (true_prefix l + 1) l)).
      { rewrite <- (firstn_skipn (true_prefix l + 1) l) in N.
        rewrite nth_error_app2 in N by (rewrite firstn_length; lia).
        eapply nth_error_In, N. }
      specialize (Zs I). destruct (B c (nth_error_In _ _ N)) as [->| ->]; [reflexivity|discriminate Zs].
Qed.

Lemma skipn_skipn {A} (l : list A) : forall a b, skipn a (skipn b l) = skipn (b + a) l.
Proof.
  induction l as [|x l IH]; intros a b; [rewrite !skipn_nil; reflexivity|].
  destruct b as [|b]; [reflexivity|]. cbn [skipn Nat.add]. apply IH.
Qed.

Lemma merge_loop_ok {A} (second : list A) : forall c f L first,
  (0 < L)%nat -> (c <= f)%nat -> length second = (L * 2 ^ c)%nat -> length first = L ->
  merge_loop f L (length second) first second = first ++ skipn L second.
Proof.
  induction c as [|c IH]; intros f L first HL Hf E F.
  - rewrite Nat.mul_1_r in E. rewrite <- E, skipn_all, app_nil_r.
    destruct f; [reflexivity|]. cbn [merge_loop]. rewrite Nat.ltb_irrefl. reflexivity.
  - destruct f as [|f]; [lia|]. cbn [merge_loop].
    assert (P : (1 <= 2 ^ c)%nat) by (clear; induction c; cbn; lia).
    cbn [Nat.pow] in E.
    assert (B : (L * 2 <= length second)%nat) by nia.
    rewrite (proj2 (Nat.ltb_lt L (length second))) by lia.
    rewrite (IH f (L * 2)%nat); try lia.
    + rewrite <- app_assoc. f_equal. unfold shrink, second_part.
      rewrite <- (firstn_skipn L (skipn L second)) at 2. f_equal.
      rewrite skipn_skipn. f_equal. lia.
    + rewrite app_length. unfold shrink, second_part. rewrite firstn_length, skipn_length. lia.
Qed.

Lemma pow2_le a b : (2 ^ a <= 2 ^ b)%nat -> (a <= b)%nat.
Proof.
  intro H. destruct (Nat.le_gt_cases a b) as [|G]; [assumption|].
  pose proof (Nat.pow_lt_mono_r 2 b a ltac:(lia) G). lia.
Qed.

Lemma merge_ok {A} (first second : list A) a b :
  length second = (2 ^ a)%nat -> length first = (2 ^ b)%nat -> (length first <= length second)%nat ->
  merge first second = first ++ skipn (length first) second.
Proof.
  intros E F L. unfold merge.
  assert (N3 : Nat.eqb (length first) 3 = false).
  { apply Nat.eqb_neq. rewrite F. destruct b as [|b]; [cbn; lia|]. cbn [Nat.pow]. lia. }
  rewrite N3. assert (Hab : (b <= a)%nat) by (apply pow2_le; lia).
  apply (merge_loop_ok second (a - b)); try reflexivity.
  - rewrite F. assert (1 <= 2 ^ b)%nat by (clear; induction b; cbn; lia). lia.
  - rewrite E. assert (H : forall x, (x < 2 ^ x)%nat) by (induction x; cbn; lia).
    specialize (H a). lia.
  - rewrite E, F, <- Nat.pow_add_r. f_equal. lia.
Qed.

(** Three elements: the fourth one is element 0 of the other vector. *)
Lemma merge3_ok {A} (first second : list A) a :
  length second = (2 ^ a)%nat -> length first = 3%nat -> (3 <= length second)%nat ->
  merge first second = first ++ firstn 1 second ++ skipn 4 second.
Proof.
  intros E F L. unfold merge. rewrite F. cbn [Nat.eqb].
  assert (Ha : (2 <= a)%nat).
  { destruct a as [|[|a]]; cbn in E; lia. }
  rewrite (merge_loop_ok second (a - 2)); try lia.
  - unfold extend3. rewrite <- app_assoc. reflexivity.
  - rewrite E. assert (H : forall x, (x < 2 ^ x)%nat) by (induction x; cbn; lia).
    specialize (H a). lia.
  - rewrite E. change 4%nat with (2 ^ 2)%nat. rewrite <- Nat.pow_add_r. f_equal. lia.
  - unfold extend3. rewrite app_length, firstn_length, F. lia.
Qed.

Lemma list_as_map {A} (d : A) l : l = map (fun i => nth i l d) (seq 0 (length l)).
Proof.
  induction l as [|x l IH]; [reflexivity|]. cbn [length seq map nth]. f_equal.
  rewrite <- seq_shift, map_map. exact IH.
Qed.

Lemma skipn_as_map {A} (d : A) l k : skipn k l = map (fun i => nth i l d) (seq k (length l - k)).
Proof.
  revert k. induction l as [|x l IH]; intro k; [rewrite skipn_nil; reflexivity|].
  destruct k as [|k].
  - cbn [skipn]. rewrite Nat.sub_0_r. apply list_as_map.
  - cbn [skipn length Nat.sub]. rewrite IH, <- seq_shift, map_map. reflexivity.
Qed.

Lemma seq_split k n : (k <= n)%nat -> seq 0 n = seq 0 k ++ seq k (n - k).
Proof. intro H. pose proof (seq_app k (n - k) 0) as E. cbn [Nat.add] in E. rewrite <- E. f_equal. lia. Qed.

Lemma selected_prefix {A} n k (a : nat -> A) (d : A) (l : list A) : (k <= n)%nat -> length l = n ->
  selected n (fun i => Nat.ltb i k) a (fun i => nth i l d) =
  selected k all_on a (fun i => nth i l d) ++ skipn k l.
Proof.
  intros L E. unfold selected. rewrite (seq_split k n L), map_app, (skipn_as_map d), E. f_equal.
  - apply map_ext_in. intros i I. apply in_seq in I.
    rewrite (proj2 (Nat.ltb_lt i k)) by lia. reflexivity.
  - apply map_ext_in. intros i I. apply in_seq in I.
    rewrite (proj2 (Nat.ltb_ge i k)) by lia. reflexivity.
Qed.

Lemma selected_length {A} n p (a b : nat -> A) : length (selected n p a b) = n.
Proof. unfold selected. rewrite map_length, seq_length. reflexivity. Qed.

Lemma stored_prefix n k mem p v : (k <= n)%nat ->
  forall x, stored n (fun i => Nat.ltb i k) mem p v x = stored k all_on mem p v x.
Proof.
  intros L x. unfold stored, all_on.
  destruct (Z.leb_spec p x); [|reflexivity]. cbn [andb].
  destruct (Z.ltb_spec x (p + Z.of_nat n)); destruct (Z.ltb_spec x (p + Z.of_nat k)); cbn [andb]; try reflexivity;
    destruct (Nat.ltb_spec (Z.to_nat (x - p)) k); try reflexivity; lia.
Qed.

Lemma accessed_prefix n k p : (k <= n)%nat ->
  accessed n (fun i => Nat.ltb i k) p = accessed k all_on p.
Proof.
  intro L. unfold accessed. f_equal. rewrite (seq_split k n L), filter_app.
  assert (A : filter (fun i => Nat.ltb i k) (seq 0 k) = filter all_on (seq 0 k)).
  { apply filter_ext_in. intros i I. apply in_seq in I. unfold all_on. apply Nat.ltb_lt. lia. }
  assert (B : filter (fun i => Nat.ltb i k) (seq k (n - k)) = []).
  { assert (G : forall l, (forall i, In i l -> (k <= i)%nat) -> filter (fun i => Nat.ltb i k) l = []).
    { induction l as [|i l IH]; intro H; [reflexivity|]. cbn [filter].
      rewrite (proj2 (Nat.ltb_ge i k)) by (apply H; left; reflexivity).
      apply IH. intros j J. apply H. right. exact J. }
    apply G. intros i I. apply in_seq in I. lia. }
  rewrite A, B, app_nil_r. reflexivity.
Qed.
