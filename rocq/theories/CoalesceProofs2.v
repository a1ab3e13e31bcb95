(** Proofs for gather coalescing (C35): the vectors. *)

From Coq Require Import ZArith List Bool Lia Sorted.
From Verif Require Import Bits CoalesceModel CoalesceSpec CoalesceProofs.
Import ListNotations.
Open Scope Z_scope.

Lemma apart_once done o rest x : apart (done ++ o :: rest) -> covers o x = true ->
  existsb (fun q => covers q x) done = false.
Proof.
  intros A H. apply not_true_iff_false. intro E. apply existsb_exists in E as (q & Hq & Cq).
  apply covers_iff in H. apply covers_iff in Cq. unfold range in *.
  induction done as [|y done IH]; [destruct Hq|]. cbn [app] in A. inversion A; subst.
  destruct Hq as [->|Hq]; [|apply IH; assumption].
  rewrite Forall_forall in H3. specialize (H3 o). rewrite in_app_iff in H3. cbn [In] in H3.
  specialize (H3 (or_intror (or_introl eq_refl))). lia.
Qed.

Section Assemble.
Variable mem : memory.
Variable p : Z.

Definition found (done : list op) (x : Z) : bool := existsb (fun o => covers o x) done.
Definition part (done : list op) (x : Z) : option Z := if found done x then Some (val mem p x) else None.

Lemma found_snoc done o x : found (done ++ [o]) x = found done x || covers o x.
Proof. unfold found. rewrite existsb_app. cbn [existsb]. rewrite orb_false_r. reflexivity. Qed.

Lemma part_snoc done o x : part (done ++ [o]) x = pick mem p o x (part done x).
Proof.
  unfold part, pick. rewrite found_snoc. destruct (covers o x); [rewrite orb_true_r|rewrite orb_false_r]; reflexivity.
Qed.

(** No insertion of a whole pair of elements where that matters. *)
Definition careful (strict : bool) (ops : list op) (chunk : list Z) : Prop :=
  strict = false \/ (forall o, In o ops -> count o <> 2) \/
  match chunk with [a; b; c; d] => no_pair a b c d | _ => False end.

Lemma assemble_loop_ok strict a b c d : forall ops done,
  careful strict ops [a; b; c; d] ->
  Forall (good mem p) ops -> Forall small ops -> apart (done ++ ops) ->
  assemble_loop strict ops [a; b; c; d]
    ([part done a; part done b; part done c; part done d], [found done a; found done b; found done c; found done d]) =
  Some ([part (done ++ ops) a; part (done ++ ops) b; part (done ++ ops) c; part (done ++ ops) d],
        [found (done ++ ops) a; found (done ++ ops) b; found (done ++ ops) c; found (done ++ ops) d]).
Proof.
  induction ops as [|o ops IH]; intros done Ca G Sm A.
  - rewrite app_nil_r. reflexivity.
  - inversion G; subst. inversion Sm; subst. cbn [assemble_loop].
    set (s := (_, _)).
    assert (F4 : four s) by (repeat eexists).
    assert (Fr : free a b c d o s) by (repeat split; intro H; apply (apart_once done o ops _ A H)).
    assert (Af : after mem p a b c d o s =
      ([part (done ++ [o]) a; part (done ++ [o]) b; part (done ++ [o]) c; part (done ++ [o]) d],
       [found (done ++ [o]) a; found (done ++ [o]) b; found (done ++ [o]) c; found (done ++ [o]) d])).
    { unfold after, s. cbn [fst snd nth]. rewrite !part_snoc, !found_snoc. reflexivity. }
    assert (E : (if count o =? 1 then apply1 o [a; b; c; d] s
       else if count o =? 2 then apply2 strict o [a; b; c; d] s
       else if count o =? 4 then apply4 o [a; b; c; d] s else None) = Some (after mem p a b c d o s)).
    { destruct H3 as [C|[C|C]]; rewrite C; cbn [Z.eqb Pos.eqb].
      - apply apply1_ok; assumption.
      - apply apply2_ok; try assumption. destruct Ca as [Ca|[Ca|Ca]]; auto.
        exfalso. apply (Ca o (or_introl eq_refl) C).
      - apply apply4_ok; assumption. }
    rewrite E, Af. replace (done ++ o :: ops) with ((done ++ [o]) ++ ops) in A |- * by (rewrite <- app_assoc; reflexivity).
    apply IH; try assumption. destruct Ca as [Ca|[Ca|Ca]]; [left; exact Ca| |right; right; exact Ca].
    right; left. intros q Hq. apply Ca. right. exact Hq.
Qed.

Lemma assemble4_ok strict ops a b c d :
  careful strict ops [a; b; c; d] ->
  Forall (good mem p) ops -> Forall small ops -> apart ops ->
  (forall x, In x [a; b; c; d] -> exists o, In o ops /\ range o x) ->
  assemble4 strict ops [a; b; c; d] = Some (map (fun x => Some (val mem p x)) [a; b; c; d]).
Proof.
  intros Ca G Sm A Co. unfold assemble4.
  change ([None; None; None; None], [false; false; false; false])
    with ([part [] a; part [] b; part [] c; part [] d], [found [] a; found [] b; found [] c; found [] d]).
  rewrite (assemble_loop_ok strict a b c d ops [] Ca G Sm A). cbn [app].
  assert (F : forall x, In x [a; b; c; d] -> found ops x = true).
  { intros x Hx. destruct (Co x Hx) as (o & Ho & R). apply existsb_exists. exists o. split; [exact Ho|].
    apply covers_iff, R. }
  unfold part. rewrite (F a), (F b), (F c), (F d) by (cbn [In]; auto). reflexivity.
Qed.

End Assemble.

(** ** The results *)

Lemma map_opt_some {A B} (f : A -> option B) (g : A -> B) l : (forall x, In x l -> f x = Some (g x)) ->
  map_opt f l = Some (map g l).
Proof.
  induction l as [|x l IH]; intro H; [reflexivity|]. cbn [map_opt map].
  rewrite (H x (or_introl eq_refl)), IH; [reflexivity|]. intros y Hy. apply H. right. exact Hy.
Qed.

Lemma chunks4_ok : forall n l, length l = (4 * n)%nat -> exists c, chunks4 l = Some c /\ length c = n /\
  (forall k, (k < n)%nat -> nth k c [] = firstn 4 (skipn (4 * k) l)) /\
  (forall x, In x c -> length x = 4%nat /\ forall y, In y x -> In y l).
Proof.
  induction n as [|n IH]; intros l L.
  - destruct l; [|cbn [length] in L; lia]. exists []. cbn. repeat split; try lia; try contradiction.
  - destruct l as [|a [|b [|c [|d l]]]]; cbn [length] in L; try lia.
    destruct (IH l) as (cs & E & Lc & Nt & Ic); [lia|].
    cbn [chunks4]. rewrite E. exists ([a; b; c; d] :: cs). split; [reflexivity|]. split; [cbn [length]; lia|]. split.
    + intros k Hk. destruct k as [|k]; [reflexivity|]. cbn [nth].
      replace (4 * Datatypes.S k)%nat with (Datatypes.S (Datatypes.S (Datatypes.S (Datatypes.S (4 * k))))) by lia.
      cbn [skipn]. apply Nt. lia.
    + intros x [<-|Hx].
      * split; [reflexivity|]. intros y Hy. cbn [In] in *. intuition.
      * destruct (Ic x Hx) as [X1 X2]. split; [exact X1|]. intros y Hy. cbn [In]. right; right; right; right. apply X2, Hy.
Qed.

Lemma concat2_ok a b : length a = length b -> concat2 a b = a ++ b.
Proof.
  intro L. unfold concat2, shuffle. replace (2 * length a)%nat with (length (a ++ b)) by (rewrite app_length; lia).
  generalize (a ++ b). intro l. induction l as [|x l IH]; [reflexivity|]. cbn [length seq map nth].
  f_equal. rewrite <- seq_shift, map_map. exact IH.
Qed.

Lemma firstn_skipn_app {A} a b k (l : list A) : firstn a (skipn k l) ++ firstn b (skipn (k + a) l) = firstn (a + b) (skipn k l).
Proof.
  revert l. induction k as [|k IH]; intro l.
  - cbn [skipn Nat.add]. revert l. induction a as [|a IHa]; intro l; [reflexivity|].
    destruct l as [|x l]; [cbn; rewrite firstn_nil; reflexivity|]. cbn [firstn skipn Nat.add app]. f_equal. apply IHa.
  - destruct l as [|x l]; [rewrite !skipn_nil, !firstn_nil; reflexivity|]. cbn [skipn Nat.add]. apply IH.
Qed.

Definition piece {A} (w k : nat) (l : list A) : list A := firstn w (skipn k l).

Lemma piece_length {A} w k (l : list A) : (k + w <= length l)%nat -> length (piece w k l) = w.
Proof. intro H. unfold piece. rewrite firstn_length, skipn_length. lia. Qed.

Lemma concat_pieces w k (l : vec) : (k + w + w <= length l)%nat ->
  concat2 (piece w k l) (piece w (k + w) l) = piece (w + w) k l.
Proof.
  intro H. rewrite concat2_ok by (rewrite !piece_length; lia). apply firstn_skipn_app.
Qed.

Section Results.
Variable l : vec.
Variable vs : list vec.
Variable n : nat.
Hypothesis vs_ok : forall k, (k < n)%nat -> nth k vs [] = piece 4 (4 * k) l.
Hypothesis l_len : length l = (4 * n)%nat.

Lemma two k : (k + 2 <= n)%nat -> concat2 (nth k vs []) (nth (k + 1) vs []) = piece 8 (4 * k) l.
Proof.
  intro H. rewrite !vs_ok by lia. replace (4 * (k + 1))%nat with (4 * k + 4)%nat by lia.
  apply (concat_pieces 4). lia.
Qed.

Lemma four_of k : (k + 4 <= n)%nat ->
  concat2 (concat2 (nth k vs []) (nth (k + 1) vs [])) (concat2 (nth (k + 2) vs []) (nth (k + 3) vs [])) =
  piece 16 (4 * k) l.
Proof.
  intro H. rewrite two by lia. replace (k + 3)%nat with (k + 2 + 1)%nat by lia. rewrite two by lia.
  replace (4 * (k + 2))%nat with (4 * k + 8)%nat by lia. apply (concat_pieces 8). lia.
Qed.

Lemma eight_of k : (k + 8 <= n)%nat ->
  concat2 (concat2 (concat2 (nth k vs []) (nth (k + 1) vs [])) (concat2 (nth (k + 2) vs []) (nth (k + 3) vs [])))
          (concat2 (concat2 (nth (k + 4) vs []) (nth (k + 5) vs [])) (concat2 (nth (k + 6) vs []) (nth (k + 7) vs []))) =
  piece 32 (4 * k) l.
Proof.
  intro H. rewrite four_of by lia. replace (k + 5)%nat with (k + 4 + 1)%nat by lia.
  replace (k + 6)%nat with (k + 4 + 2)%nat by lia. replace (k + 7)%nat with (k + 4 + 3)%nat by lia.
  rewrite four_of by lia.
  replace (4 * (k + 4))%nat with (4 * k + 16)%nat by lia. apply (concat_pieces 16). lia.
Qed.

Lemma result_4 i : (i < n)%nat -> result_vec 4 vs i = Some (piece 4 (4 * i) l).
Proof. intro H. cbn [result_vec]. rewrite vs_ok by exact H. reflexivity. Qed.

Lemma result_8 i : (2 * i + 2 <= n)%nat -> result_vec 8 vs i = Some (piece 8 (8 * i) l).
Proof.
  intro H. unfold result_vec. cbv zeta. rewrite two by exact H. do 2 f_equal. lia.
Qed.

Lemma result_16 i : (4 * i + 4 <= n)%nat -> result_vec 16 vs i = Some (piece 16 (16 * i) l).
Proof.
  intro H. unfold result_vec. cbv zeta. rewrite four_of by exact H. do 2 f_equal. lia.
Qed.

Lemma result_32 : (8 <= n)%nat -> result_vec 32 vs 0 = Some (piece 32 0 l).
Proof.
  intro H. unfold result_vec. cbv zeta. rewrite Nat.mul_0_r. rewrite (eight_of 0) by exact H. reflexivity.
Qed.

Lemma result_64 : (16 <= n)%nat -> result_vec 64 vs 0 = Some (piece 64 0 l).
Proof.
  intro H. unfold result_vec. cbv zeta. rewrite Nat.mul_0_r. rewrite (eight_of 0) by lia.
  change (0 + 9)%nat with (8 + 1)%nat. change (0 + 10)%nat with (8 + 2)%nat. change (0 + 11)%nat with (8 + 3)%nat.
  change (0 + 12)%nat with (8 + 4)%nat. change (0 + 13)%nat with (8 + 5)%nat.
  change (0 + 14)%nat with (8 + 6)%nat. change (0 + 15)%nat with (8 + 7)%nat. change (0 + 8)%nat with 8%nat.
  rewrite (eight_of 8) by lia. change (4 * 8)%nat with (4 * 0 + 32)%nat.
  rewrite (concat_pieces 32) by lia. reflexivity.
Qed.

End Results.

(** The pieces of the constants of a group. *)
Lemma flat_map_piece {A B} (f : A -> list B) w : forall (g : list A), (forall x, In x g -> length (f x) = w) ->
  map (fun i => piece w (w * i) (flat_map f g)) (seq 0 (length g)) = map f g.
Proof.
  induction g as [|x g IH]; intro H; [reflexivity|]. cbn [length seq map flat_map].
  pose proof (H x (or_introl eq_refl)) as Lx. f_equal.
  - unfold piece. rewrite Nat.mul_0_r. cbn [skipn]. rewrite <- Lx at 1.
    rewrite firstn_app, Nat.sub_diag, firstn_all, firstn_O, app_nil_r. reflexivity.
  - rewrite <- seq_shift, map_map. rewrite <- IH by (intros y Hy; apply H; right; exact Hy).
    apply map_ext. intro i. unfold piece.
    replace (w * Datatypes.S i)%nat with (length (f x) + w * i)%nat by lia.
    rewrite skipn_app. rewrite skipn_all2 by lia. cbn [app]. do 2 f_equal. lia.
Qed.

Lemma flat_map_const_length {A B} (f : A -> list B) w g : (forall x, In x g -> length (f x) = w) ->
  length (flat_map f g) = (w * length g)%nat.
Proof.
  induction g as [|x g IH]; intro H; [cbn; lia|]. cbn [flat_map length]. rewrite app_length, IH, (H x (or_introl eq_refl)).
  - lia.
  - intros y Hy. apply H. right. exact Hy.
Qed.

Section Whole.
Variable mem : memory.
Variable p : Z.

Lemma assemble_results_ok strict n ops offs count_g :
  width_ok n count_g -> length offs = (n * count_g)%nat ->
  (forall c, In c (match chunks4 offs with Some c => c | None => [] end) -> careful strict ops c) ->
  Forall (good mem p) ops -> Forall small ops -> apart ops ->
  (forall x, In x offs -> exists o, In o ops /\ range o x) ->
  assemble_results strict n ops offs =
  Some (map (fun i => piece n (n * i) (map (fun x => Some (val mem p x)) offs)) (seq 0 count_g)).
Proof.
  intros W L Ca G Sm A Co. unfold assemble_results.
  assert (M : exists m, n = (4 * m)%nat /\ m <> O).
  { destruct W as [->|[->|[->|[[->| ->] _]]]]; [exists 1%nat|exists 2%nat|exists 4%nat|exists 8%nat|exists 16%nat]; lia. }
  destruct M as (m & Nm & M0).
  destruct (chunks4_ok (m * count_g) offs) as (c & E & Lc & Nt & Ic); [lia|]. rewrite E in Ca |- *.
  rewrite (map_opt_some _ (map (fun x => Some (val mem p x)))).
  2:{ intros x Hx. destruct (Ic x Hx) as [Lx Ix]. specialize (Ca x Hx).
      destruct x as [|x0 [|x1 [|x2 [|x3 [|]]]]]; cbn [length] in Lx; try lia.
      apply assemble4_ok; auto. }
  set (V := fun x => Some (val mem p x)).
  assert (D : Nat.div (length offs) n = count_g).
  { rewrite L, Nat.mul_comm. apply Nat.div_mul. lia. }
  rewrite D.
  assert (vs_ok : forall k, (k < m * count_g)%nat -> nth k (map (map V) c) [] = piece 4 (4 * k) (map V offs)).
  { intros k Hk. change (@nil (option Z)) with (map V []). rewrite map_nth, Nt by exact Hk.
    unfold piece. rewrite <- firstn_map, <- skipn_map. reflexivity. }
  assert (l_len : length (map V offs) = (4 * (m * count_g))%nat) by (rewrite map_length; lia).
  apply map_opt_some. intros i Hi. apply in_seq in Hi.
  destruct W as [->|[->|[->|[[->| ->] ->]]]].
  - apply (result_4 _ _ _ vs_ok). nia.
  - apply (result_8 _ _ _ vs_ok l_len). nia.
  - apply (result_16 _ _ _ vs_ok l_len). nia.
  - assert (i = 0)%nat as -> by lia. apply (result_32 _ _ _ vs_ok l_len). nia.
  - assert (i = 0)%nat as -> by lia. apply (result_64 _ _ _ vs_ok l_len). nia.
Qed.

End Whole.
