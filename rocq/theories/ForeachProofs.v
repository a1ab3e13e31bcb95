(** Proofs about the foreach machine. *)
From Coq Require Import ZArith List Bool Lia Permutation.
From Verif Require Import Bits LanesModel ForeachModel ForeachSpec.
Import ListNotations.
Local Open Scope Z_scope.

(** ** Ranges and products *)

Lemma zrange_nil a b : b <= a -> zrange a b = [].
Proof. intros H. unfold zrange. replace (Z.to_nat (b - a)) with 0%nat by lia. reflexivity. Qed.

Lemma zrange_app a b c : a <= b -> b <= c -> zrange a c = zrange a b ++ zrange b c.
Proof.
  intros H1 H2. unfold zrange.
  replace (Z.to_nat (c - a)) with (Z.to_nat (b - a) + Z.to_nat (c - b))%nat by lia.
  rewrite seq_app, map_app. f_equal.
  replace (0 + Z.to_nat (b - a))%nat with (Z.to_nat (b - a) + 0)%nat by lia.
  rewrite <- (map_id (seq (Z.to_nat (b-a) + 0) _)).
  generalize 0%nat at 1 2 as k. generalize (Z.to_nat (c - b)) as n.
  induction n; intros k; [reflexivity|]. cbn [seq map]. f_equal; [lia|].
  rewrite <- Nat.add_succ_r. apply IHn.
Qed.

Lemma zrange_In a b x : In x (zrange a b) <-> a <= x < b.
Proof.
  unfold zrange. rewrite in_map_iff. split.
  - intros (k & <- & Hk). apply in_seq in Hk. lia.
  - intros H. exists (Z.to_nat (x - a)). split; [lia|]. apply in_seq. lia.
Qed.

Lemma zrange_NoDup a b : NoDup (zrange a b).
Proof.
  unfold zrange. apply FinFun.Injective_map_NoDup; [|apply seq_NoDup].
  intros x y H. lia.
Qed.

Lemma zrange_shift c a b : map (Z.add c) (zrange a b) = zrange (c + a) (c + b).
Proof.
  unfold zrange. rewrite map_map. replace (c + b - (c + a)) with (b - a) by lia.
  apply map_ext; intros k; lia.
Qed.

Lemma zrange_filter a b e : filter (fun x => x <? e) (zrange a b) = zrange a (Z.min b e).
Proof.
  unfold zrange. 
  destruct (Z.le_gt_cases b a).
  { replace (Z.to_nat (b - a)) with 0%nat by lia.
    replace (Z.to_nat (Z.min b e - a)) with 0%nat by lia. reflexivity. }
  destruct (Z.le_gt_cases e a).
  { replace (Z.to_nat (Z.min b e - a)) with 0%nat by lia. cbn [seq map].
    generalize (Z.to_nat (b - a)) as n. generalize 0%nat as k. intros k n. revert k.
    induction n; intros k; [reflexivity|]. cbn [seq map filter].
    destruct (Z.ltb_spec (a + Z.of_nat k) e); [lia|]. apply IHn. }
  destruct (Z.le_gt_cases b e).
  { rewrite Z.min_l by lia.
    assert (F : forall n k, Z.of_nat (k + n) <= b - a ->
      filter (fun x => x <? e) (map (fun k => a + Z.of_nat k) (seq k n)) = map (fun k => a + Z.of_nat k) (seq k n)).
    { induction n; intros k Hk; [reflexivity|]. cbn [seq map filter].
      destruct (Z.ltb_spec (a + Z.of_nat k) e); [|lia]. f_equal. apply IHn. lia. }
    apply F. lia. }
  rewrite Z.min_r by lia.
  replace (Z.to_nat (b - a)) with (Z.to_nat (e - a) + Z.to_nat (b - e))%nat by lia.
  rewrite seq_app, map_app, filter_app.
  assert (F : forall n k, Z.of_nat (k + n) <= e - a ->
    filter (fun x => x <? e) (map (fun k => a + Z.of_nat k) (seq k n)) = map (fun k => a + Z.of_nat k) (seq k n)).
  { induction n; intros k Hk; [reflexivity|]. cbn [seq map filter].
    destruct (Z.ltb_spec (a + Z.of_nat k) e); [|lia]. f_equal. apply IHn. lia. }
  rewrite F by lia.
  assert (G : forall n k, Z.of_nat k >= e - a ->
    filter (fun x => x <? e) (map (fun k => a + Z.of_nat k) (seq k n)) = []).
  { induction n; intros k Hk; [reflexivity|]. cbn [seq map filter].
    destruct (Z.ltb_spec (a + Z.of_nat k) e); [lia|]. apply IHn. lia. }
  rewrite G by lia. apply app_nil_r.
Qed.

Lemma flat_map_app_perm {A B} (f g : A -> list B) xs :
  Permutation (flat_map (fun x => f x ++ g x) xs) (flat_map f xs ++ flat_map g xs).
Proof.
  induction xs as [|x xs IH]; cbn; [constructor|].
  rewrite IH. rewrite <- !app_assoc. apply Permutation_app_head.
  rewrite !app_assoc. apply Permutation_app_tail. apply Permutation_app_comm.
Qed.

Lemma flat_map_perm_ext {A B} (f g : A -> list B) xs :
  (forall x, Permutation (f x) (g x)) -> Permutation (flat_map f xs) (flat_map g xs).
Proof. intros H. induction xs; cbn; [constructor|]. apply Permutation_app; auto. Qed.

Lemma product_split pre X Y post :
  Permutation (product (pre ++ (X ++ Y) :: post))
              (product (pre ++ X :: post) ++ product (pre ++ Y :: post)).
Proof.
  induction pre as [|P pre IH]; cbn [app product].
  - rewrite flat_map_app. apply Permutation_refl.
  - etransitivity; [|apply flat_map_app_perm]. apply flat_map_perm_ext. intros x.
    rewrite <- map_app. apply Permutation_map, IH.
Qed.

Lemma product_nil_mid pre post : product (pre ++ [] :: post) = [].
Proof.
  induction pre as [|P pre IH]; [reflexivity|]. cbn [app product]. rewrite IH. cbn.
  induction P; auto.
Qed.

(* pointwise operations on products *)
Fixpoint map2 {A B C} (f : A -> B -> C) (xs : list A) (ys : list B) : list C :=
  match xs, ys with x :: xs, y :: ys => f x y :: map2 f xs ys | _, _ => [] end.

Lemma product_map (cs : list Z) : forall (Ls : list (list Z)), length cs = length Ls ->
  map (map2 Z.add cs) (product Ls) = product (map2 (fun c L => map (Z.add c) L) cs Ls).
Proof.
  induction cs as [|c cs IH]; intros [|L Ls] H; try discriminate; [reflexivity|].
  cbn [product map2]. rewrite <- IH by (cbn in H; lia). clear H.
  induction L as [|x L IHL]; [reflexivity|]. cbn [flat_map map].
  rewrite map_app, IHL. f_equal. rewrite !map_map. reflexivity.
Qed.

Fixpoint all_lt (es xs : list Z) : bool :=
  match es, xs with e :: es, x :: xs => (x <? e) && all_lt es xs | _, _ => true end.

Lemma filter_map_cons es e x : forall Q,
  filter (all_lt (e :: es)) (map (cons x) Q) = if x <? e then map (cons x) (filter (all_lt es) Q) else [].
Proof.
  induction Q as [|q Q IH]; [cbn; destruct (x <? e); reflexivity|].
  cbn [map filter]. rewrite IH. cbn [all_lt].
  destruct (x <? e); cbn [andb]; [destruct (all_lt es q)|]; reflexivity.
Qed.

Lemma product_filter (es : list Z) : forall (Ls : list (list Z)), length es = length Ls ->
  filter (all_lt es) (product Ls) = product (map2 (fun e L => filter (fun x => x <? e) L) es Ls).
Proof.
  induction es as [|e es IH]; intros [|L Ls] H; try discriminate; [reflexivity|].
  cbn [product map2]. rewrite <- IH by (cbn in H; lia). clear H.
  induction L as [|x L IHL]; [reflexivity|]. cbn [flat_map].
  rewrite filter_app, IHL, filter_map_cons. cbn [filter]. destruct (x <? e); reflexivity.
Qed.

Lemma product_In Ls : forall xs, In xs (product Ls) <-> Forall2 (fun x L => In x L) xs Ls.
Proof.
  induction Ls as [|L Ls IH]; intros xs; cbn [product].
  - split; [intros [<-|[]]; constructor|]. intros H; inversion H; left; reflexivity.
  - rewrite in_flat_map. split.
    + intros (x & Hx & Hin). apply in_map_iff in Hin as (ys & <- & Hys). constructor; auto. now apply IH.
    + intros H; inversion H; subst. eexists; split; [eassumption|]. apply in_map. now apply IH.
Qed.

Lemma product_NoDup Ls : Forall (@NoDup Z) Ls -> NoDup (product Ls).
Proof.
  induction Ls as [|L Ls IH]; intros H; cbn [product]; [constructor; [intros []|constructor]|].
  inversion H as [|? ? HL HLs]; subst. specialize (IH HLs). clear H HLs.
  induction L as [|x L IHL]; cbn [flat_map]; [constructor|].
  inversion HL as [|? ? Hx HL']; subst.
  assert (A : forall (P Q : list (list Z)), NoDup P -> NoDup Q -> (forall p, In p P -> ~ In p Q) -> NoDup (P ++ Q)).
  { induction P as [|p P IHP]; intros Q H1 H2 H3; [exact H2|]. inversion H1; subst. cbn. constructor.
    - rewrite in_app_iff. intros [|]; [tauto|]. eapply H3; eauto. now left.
    - apply IHP; auto. intros q Hq. apply H3. now right. }
  apply A; [|auto|].
  - apply FinFun.Injective_map_NoDup; auto. intros p q E. congruence.
  - intros p Hp Hq. apply in_map_iff in Hp as (q & <- & _).
    apply in_flat_map in Hq as (y & Hy & Hin). apply in_map_iff in Hin as (? & E & _).
    congruence.
Qed.

(** ** Lane offsets enumerate the tile *)

Definition prod (l : list Z) : Z := fold_right Z.mul 1 l.

Definition deltas (spans : list Z) (l : nat) : list Z :=
  map (fun i => delta spans i l) (seq 0 (length spans)).

Lemma prod_pos l : Forall (fun a => 0 < a) l -> 0 < prod l.
Proof. induction 1; cbn; [lia|]. unfold prod in *. nia. Qed.

Lemma delta_cons a spans i l : Forall (fun a => 0 < a) spans ->
  (i < length spans)%nat ->
  delta (a :: spans) (S i) l = delta spans i (Z.to_nat (Z.of_nat l mod prod spans)).
Proof.
  intros Hpos Hi. unfold delta. cbn [skipn nth].
  change (match spans with [] => [] | _ :: l0 => skipn i l0 end) with (skipn (S i) spans).
  assert (E : prod spans = prod (firstn i spans) * (nth i spans 0 * prod (skipn (S i) spans))).
  { clear Hpos. revert i Hi. induction spans as [|b spans IH]; intros i Hi; [cbn in Hi; lia|].
    destruct i; [unfold prod; cbn [firstn fold_right nth skipn]; lia|].
    cbn [firstn nth]. change (skipn (S (S i)) (b :: spans)) with (skipn (S i) spans).
    unfold prod in *. cbn [fold_right]. rewrite (IH i) by (cbn in Hi; lia). ring. }
  fold (prod (skipn (S i) spans)).
  pose proof (prod_pos spans Hpos) as Hp.
  assert (H1 : 0 < prod (skipn (S i) spans)).
  { apply prod_pos. rewrite <- (firstn_skipn (S i) spans) in Hpos. now apply Forall_app in Hpos. }
  assert (H2 : 0 < prod (firstn i spans)).
  { apply prod_pos. rewrite <- (firstn_skipn i spans) in Hpos. now apply Forall_app in Hpos. }
  assert (H3 : 0 < nth i spans 0).
  { rewrite Forall_forall in Hpos. apply Hpos. now apply nth_In. }
  rewrite Z2Nat.id by (apply Z.mod_pos_bound; lia).
  set (P := prod (skipn (S i) spans)) in *. set (A := nth i spans 0) in *. set (F := prod (firstn i spans)) in *.
  rewrite E. set (x := Z.of_nat l).
  pose proof (Z.div_mod x (F * (A * P)) ltac:(nia)) as D.
  set (q := x / (F * (A * P))) in *. set (r := x mod (F * (A * P))) in *.
  replace x with (r + (q * F * A) * P) by nia.
  rewrite Z.div_add by lia.
  replace (r / P + q * F * A) with (r / P + (q * F) * A) by ring.
  now rewrite Z.mod_add by lia.
Qed.

Lemma deltas_product spans : Forall (fun a => 0 < a) spans ->
  map (deltas spans) (lanes (Z.to_nat (prod spans))) = product (map (fun a => zrange 0 a) spans).
Proof.
  induction spans as [|a spans IH]; intros Hpos; [reflexivity|].
  inversion Hpos as [|? ? Ha Hs]; subst. specialize (IH Hs).
  cbn [map product]. pose proof (prod_pos spans Hs) as HP.
  set (P := prod spans) in *.
  change (prod (a :: spans)) with (a * P).
  assert (G : forall n : nat, (Z.of_nat n <= a) ->
    map (deltas (a :: spans)) (lanes (n * Z.to_nat P)) =
    flat_map (fun x => map (cons x) (product (map (fun a => zrange 0 a) spans)))
             (map (fun k => 0 + Z.of_nat k) (seq 0 n))).
  { induction n as [|n IHn]; intros Hn; [reflexivity|].
    rewrite seq_S, map_app, flat_map_app. cbn [map flat_map]. rewrite app_nil_r.
    replace (S n * Z.to_nat P)%nat with (n * Z.to_nat P + Z.to_nat P)%nat by lia.
    unfold lanes. rewrite seq_app, map_app. fold (lanes (n * Z.to_nat P)). rewrite IHn by lia.
    f_equal. cbn [plus]. rewrite <- IH. rewrite map_map. unfold lanes.
    assert (Q : forall m k, (k + m <= Z.to_nat P)%nat ->
      map (deltas (a :: spans)) (seq (n * Z.to_nat P + k) m) =
      map (fun x => 0 + Z.of_nat n :: deltas spans x) (seq k m)).
    { induction m as [|m IHm]; intros k Hk; [reflexivity|]. cbn [seq map].
      f_equal; [|rewrite <- Nat.add_succ_r; apply IHm; lia].
      unfold deltas. cbn [length seq map]. f_equal.
      - unfold delta. cbn [skipn nth]. fold (prod spans). fold P.
        replace (Z.of_nat (n * Z.to_nat P + k)) with (Z.of_nat k + Z.of_nat n * P) by nia.
        rewrite Z.div_add by lia. rewrite (Z.div_small (Z.of_nat k)) by lia.
        rewrite Z.mod_small by lia. lia.
      - rewrite <- seq_shift, map_map. apply map_ext_in. intros i Hi. apply in_seq in Hi.
        rewrite delta_cons by (auto; lia). f_equal. fold P.
        replace (Z.of_nat (n * Z.to_nat P + k)) with (Z.of_nat k + Z.of_nat n * P) by nia.
        rewrite Z.mod_add by lia. rewrite Z.mod_small by lia. lia. }
    rewrite <- (Nat.add_0_r (n * Z.to_nat P)). rewrite Q by lia. reflexivity. }
  specialize (G (Z.to_nat a) ltac:(lia)).
  rewrite <- Z2Nat.inj_mul in G by lia. rewrite G. unfold zrange. rewrite Z.sub_0_r. reflexivity.
Qed.

Lemma delta_range spans i l : Forall (fun a => 0 < a) spans -> (i < length spans)%nat ->
  0 <= delta spans i l < nth i spans 0.
Proof.
  intros H Hi. unfold delta. apply Z.mod_pos_bound.
  rewrite Forall_forall in H. apply H. now apply nth_In.
Qed.

(** ** Spans *)

Definition spans_ok (W : nat) (spans : list Z) : Prop :=
  Forall (fun a => 0 < a) spans /\ prod spans = Z.of_nat W.

Lemma get_spans_length d x t : length (get_spans d x t) = S d.
Proof. revert x; induction d; intros x; cbn [get_spans length]; [reflexivity|]. now rewrite IHd. Qed.

Lemma get_spans_untiled d x : 0 < x ->
  Forall (fun a => 0 < a) (get_spans d x false) /\ prod (get_spans d x false) = x.
Proof.
  intros Hx. induction d; cbn [get_spans negb orb].
  - split; [repeat constructor; lia|]. unfold prod; cbn; lia.
  - rewrite Z.div_1_r. destruct IHd as [H1 H2]. split; [constructor; [lia|exact H1]|].
    unfold prod in *. cbn [fold_right]. rewrite H2. lia.
Qed.

Lemma get_spans_tiled d : forall k : nat,
  Forall (fun a => 0 < a) (get_spans d (2 ^ Z.of_nat k) true) /\
  prod (get_spans d (2 ^ Z.of_nat k) true) = 2 ^ Z.of_nat k.
Proof.
  induction d; intros k; cbn [get_spans negb orb].
  - split; [repeat constructor; apply Z.pow_pos_nonneg; lia|]. unfold prod; cbn [fold_right]; lia.
  - assert (Pk : 0 < 2 ^ Z.of_nat k) by (apply Z.pow_pos_nonneg; lia).
    assert (C1 : forall a, a = 1 -> Forall (fun a => 0 < a) (a :: get_spans d (2 ^ Z.of_nat k / a) true) /\
       prod (a :: get_spans d (2 ^ Z.of_nat k / a) true) = 2 ^ Z.of_nat k).
    { intros a ->. rewrite Z.div_1_r. destruct (IHd k) as [H1 H2]. split; [constructor; [lia|auto]|].
      unfold prod in *; cbn [fold_right]. rewrite H2; lia. }
    destruct (Z.leb_spec (log2 (2 ^ Z.of_nat k)) (Z.of_nat (S d))) as [|L]; [now apply C1|].
    destruct k as [|k].
    { exfalso. change (log2 (2 ^ Z.of_nat 0)) with 0 in L. lia. }
    destruct ((16 <=? 2 ^ Z.of_nat (S k)) && (Z.of_nat (S d) =? 1)) eqn:E.
    + apply andb_true_iff in E as [E _]. apply Z.leb_le in E.
      destruct k as [|k]; [cbn in E; lia|].
      replace (2 ^ Z.of_nat (S (S k)) / 4) with (2 ^ Z.of_nat k).
      2:{ replace (Z.of_nat (S (S k))) with (Z.of_nat k + 2) by lia. rewrite Z.pow_add_r by lia.
          change (2 ^ 2) with 4. rewrite Z.div_mul; lia. }
      destruct (IHd k) as [H1 H2]. split; [constructor; [lia|auto]|].
      unfold prod in *; cbn [fold_right]. rewrite H2.
      replace (Z.of_nat (S (S k))) with (Z.of_nat k + 2) by lia. rewrite Z.pow_add_r by lia. lia.
    + replace (2 ^ Z.of_nat (S k) / 2) with (2 ^ Z.of_nat k).
      2:{ replace (Z.of_nat (S k)) with (Z.of_nat k + 1) by lia. rewrite Z.pow_add_r by lia.
          change (2 ^ 1) with 2. rewrite Z.div_mul; lia. }
      destruct (IHd k) as [H1 H2]. split; [constructor; [lia|auto]|].
      unfold prod in *; cbn [fold_right]. rewrite H2.
      replace (Z.of_nat (S k)) with (Z.of_nat k + 1) by lia. rewrite Z.pow_add_r by lia. lia.
Qed.
