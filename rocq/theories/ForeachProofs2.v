(** The foreach machine visits exactly the points of the box. *)
From Coq Require Import ZArith List Bool Lia Permutation.
From Verif Require Import Bits LanesModel ForeachModel ForeachSpec ForeachProofs.
Import ListNotations.
Local Open Scope Z_scope.

Lemma in32_true x : - 2 ^ 31 <= x < 2 ^ 31 -> in32 x = true.
Proof. intros H. unfold in32. apply andb_true_iff. split; [apply Z.leb_le|apply Z.ltb_lt]; lia. Qed.

Lemma nsw_some x : - 2 ^ 31 <= x < 2 ^ 31 -> nsw x = Some x.
Proof. intros H. unfold nsw. now rewrite in32_true. Qed.

(* truncated remainder, by the sign of the dividend *)
Lemma rem_facts d a : 0 < a -> 
  (0 <= d -> Z.rem d a = d mod a) /\ (d <= 0 -> Z.rem d a = - ((- d) mod a)).
Proof.
  intros Ha. split; intros Hd.
  - apply Z.rem_mod_nonneg; lia.
  - rewrite <- (Z.opp_involutive d) at 1. rewrite Z.rem_opp_l by lia.
    rewrite Z.rem_mod_nonneg; lia.
Qed.

Section Machine.
Context (W : nat) (spans starts ends : list Z).
Notation n := (length starts).
Notation k := (pred (length starts)).
Notation step := (fstep W spans starts ends).
Context (Hsp : spans_ok W spans) (Lsp : length spans = n) (Len : length ends = n) (Hn : (0 < n)%nat).
Context (Hb : forall i, (i < n)%nat -> bounds_in_range W (nth i starts 0) (nth i ends 0)).

Definition st_ (i : nat) : Z := nth i starts 0.
Definition en (i : nat) : Z := nth i ends 0.
Definition sp (i : nat) : Z := nth i spans 0.
Definition ae (i : nat) : Z := en i - Z.rem (en i - st_ i) (sp i).

Lemma sp_pos i : (i < n)%nat -> 0 < sp i.
Proof.
  intros Hi. destruct Hsp as [H _]. rewrite Forall_forall in H. apply H, nth_In. lia.
Qed.

Lemma nth_le_prod l : Forall (fun a => 0 < a) l -> forall i, (i < length l)%nat -> nth i l 0 <= prod l.
Proof.
  induction 1 as [|a l Ha Hl IH]; intros i Hi; [cbn in Hi; lia|].
  pose proof (prod_pos l Hl) as HP. unfold prod in *. cbn [fold_right].
  destruct i; cbn [nth]; [nia|]. specialize (IH i ltac:(cbn in Hi; lia)). nia.
Qed.

Lemma sp_le i : (i < n)%nat -> sp i <= Z.of_nat W.
Proof.
  intros Hi. destruct Hsp as [H E]. rewrite <- E. apply nth_le_prod; [exact H|lia].
Qed.

Lemma W_pos : (0 < W)%nat.
Proof using Hsp. clear - Hsp. destruct Hsp as [H E]. pose proof (prod_pos _ H). lia. Qed.

Lemma bounds i : (i < n)%nat ->
  - 2 ^ 31 <= st_ i /\ st_ i + Z.of_nat W <= 2 ^ 31 /\
  - 2 ^ 31 <= en i /\ en i + Z.of_nat W <= 2 ^ 31 /\ - 2 ^ 31 <= en i - st_ i < 2 ^ 31.
Proof. intros Hi. exact (Hb i Hi). Qed.

Lemma alignedEnd_some i : (i < n)%nat -> alignedEnd spans starts ends i = Some (ae i).
Proof.
  intros Hi. pose proof (bounds i Hi) as (B1 & B2 & B3 & B4 & B5). pose proof (sp_pos i Hi) as Ha.
  unfold alignedEnd, nExtras, nItems, sub_nsw, srem, end_, start, span.
  fold (st_ i) (en i) (sp i). rewrite (nsw_some (en i - st_ i)) by lia. cbn.
  destruct (rem_facts (en i - st_ i) (sp i) Ha) as [R1 R2].
  unfold ae. apply nsw_some. pose proof W_pos.
  destruct (Z.le_gt_cases (st_ i) (en i)).
  - rewrite R1 by lia. pose proof (Z.mod_pos_bound (en i - st_ i) (sp i) Ha).
    pose proof (Z.mod_le (en i - st_ i) (sp i) ltac:(lia) Ha). lia.
  - rewrite R2 by lia. pose proof (Z.mod_pos_bound (- (en i - st_ i)) (sp i) Ha).
    pose proof (Z.mod_le (- (en i - st_ i)) (sp i) ltac:(lia) Ha). lia.
Qed.

(* c is one of the counter values of dimension i *)
Definition aligned (i : nat) (c : Z) : Prop := exists q, 0 <= q /\ c = st_ i + q * sp i.

Lemma aligned_cases i c : (i < n)%nat -> aligned i c -> c < en i ->
  (c < ae i /\ c + sp i <= en i) \/ (c = ae i /\ ae i < en i < ae i + sp i).
Proof.
  intros Hi (q & Hq & ->) Hc. pose proof (sp_pos i Hi) as Ha.
  destruct (rem_facts (en i - st_ i) (sp i) Ha) as [R1 R2].
  assert (st_ i <= en i) by nia. unfold ae. rewrite R1 by lia.
  pose proof (Z.div_mod (en i - st_ i) (sp i) ltac:(lia)) as D.
  pose proof (Z.mod_pos_bound (en i - st_ i) (sp i) Ha) as M.
  set (d := (en i - st_ i) / sp i) in *. set (r := (en i - st_ i) mod sp i) in *.
  destruct (Z.le_gt_cases d q); [right|left].
  - assert (q = d). { destruct (Z.eq_dec q d); [assumption|]. assert ((d + 1) * sp i <= q * sp i) by (apply Z.mul_le_mono_nonneg_r; lia). lia. }
    subst q. lia.
  - assert ((q + 1) * sp i <= d * sp i) by (apply Z.mul_le_mono_nonneg_r; lia). lia.
Qed.

Lemma not_before_aligned i c : (i < n)%nat -> aligned i c -> en i <= c -> c < ae i -> False.
Proof.
  intros Hi (q & Hq & ->) Hc Hlt. pose proof (sp_pos i Hi) as Ha.
  destruct (rem_facts (en i - st_ i) (sp i) Ha) as [R1 R2]. unfold ae in Hlt.
  destruct (Z.le_gt_cases (st_ i) (en i)).
  - rewrite R1 in Hlt by lia. pose proof (Z.mod_pos_bound (en i - st_ i) (sp i) Ha). lia.
  - rewrite R2 in Hlt by lia.
    pose proof (Z.mod_le (- (en i - st_ i)) (sp i) ltac:(lia) Ha). nia.
Qed.

(* counter values that occur: the start, or a start of chunk, or the first one not below the end *)
Definition reachable_counter (i : nat) (c : Z) : Prop :=
  aligned i c /\ (c = st_ i \/ c - sp i < en i).

Lemma counter_range i c : (i < n)%nat -> reachable_counter i c -> - 2 ^ 31 <= c < 2 ^ 31.
Proof.
  intros Hi [(q & Hq & E) H]. pose proof (bounds i Hi) as (B1 & B2 & B3 & B4 & B5).
  pose proof (sp_pos i Hi). pose proof (sp_le i Hi). pose proof W_pos. nia.
Qed.

Lemma step_counter i c : (i < n)%nat -> reachable_counter i c -> c < en i ->
  reachable_counter i (c + sp i) /\ add_nsw (Some c) (Some (sp i)) = Some (c + sp i).
Proof.
  intros Hi [(q & Hq & E) H] Hc.
  assert (R : reachable_counter i (c + sp i)).
  { split; [exists (q + 1); nia|]. right; lia. }
  split; [exact R|]. cbn. apply nsw_some. apply (counter_range i); auto.
Qed.

Lemma varying_some i c : (i < n)%nat -> reachable_counter i c -> (c = st_ i \/ c <= en i) ->
  varying_counter W spans i (Some c) = map (fun l => Some (c + delta spans i l)) (lanes W).
Proof.
  intros Hi R Hc. unfold varying_counter. apply map_ext. intros l. cbn.
  pose proof (delta_range spans i l (proj1 Hsp) ltac:(lia)) as D. fold (sp i) in D.
  pose proof (bounds i Hi) as (B1 & B2 & B3 & B4 & B5). pose proof (sp_le i Hi).
  pose proof (counter_range i c Hi R). apply nsw_some. lia.
Qed.

(** *** Masks and events *)

Definition tm (i : nat) (cv : nat -> Z) (l : nat) : bool :=
  forallb (fun j => cv j + delta spans j l <? en j) (seq 0 i).
Definition partial (j : nat) (c : Z) : bool := (ae j <? en j) && (c =? ae j).
Definition inx (i : nat) (cv : nat -> Z) : bool := existsb (fun j => partial j (cv j)) (seq 0 i).
Definition sub (j : nat) (c : Z) : list Z := zrange c (Z.min (c + sp j) (en j)).

Definition mask_of (i : nat) (cv : nat -> Z) : list (option bool) := map (fun l => Some (tm i cv l)) (lanes W).

Lemma all_defined_map {A B} (f : A -> B) xs : all_defined (map (fun x => Some (f x)) xs) = Some (map f xs).
Proof. induction xs as [|x xs IH]; cbn; [reflexivity|]. now rewrite IH. Qed.

Lemma vmap2_band (f g : nat -> bool) xs :
  vmap2 band (map (fun l => Some (f l)) xs) (map (fun l => Some (g l)) xs) = map (fun l => Some (f l && g l)) xs.
Proof. unfold vmap2. induction xs as [|x xs IH]; cbn; [reflexivity|]. now f_equal. Qed.

Lemma tm_S i cv l : tm (S i) cv l = tm i cv l && (cv i + delta spans i l <? en i).
Proof. unfold tm. rewrite seq_S, forallb_app. cbn. now rewrite andb_true_r. Qed.

Lemma inx_S i cv : inx (S i) cv = inx i cv || partial i (cv i).
Proof. unfold inx. rewrite seq_S, existsb_app. cbn. now rewrite orb_false_r. Qed.

Lemma map2_map_seq {B C D} (h : B -> C -> D) (f : nat -> B) (g : nat -> C) xs :
  map2 h (map f xs) (map g xs) = map (fun j => h (f j) (g j)) xs.
Proof. induction xs; cbn; [reflexivity|]. now f_equal. Qed.

Lemma map_nth_seq {A B} (f : A -> B) d (l : list A) :
  map (fun i => f (nth i l d)) (seq 0 (length l)) = map f l.
Proof.
  induction l as [|x l IH]; [reflexivity|]. cbn [length seq map]. f_equal.
  rewrite <- seq_shift, map_map. exact IH.
Qed.

Definition event_of (cv : nat -> Z) : event :=
  Event (map (tm n cv) (lanes W))
        (map (fun l => map (fun j => Some (cv j + delta spans j l)) (seq 0 n)) (lanes W)).

Lemma active_points_map (f : nat -> bool) (g : nat -> list (option Z)) xs :
  active_points (Event (map f xs) (map g xs)) = map g (filter f xs).
Proof.
  unfold active_points. cbn [ev_mask ev_index].
  induction xs as [|x xs IH]; cbn; [reflexivity|]. destruct (f x); cbn; now rewrite IH.
Qed.

Lemma all_lt_map es : forall (xs : list nat) (f : nat -> Z), es = map en xs ->
  all_lt es (map f xs) = forallb (fun j => f j <? en j) xs.
Proof.
  induction es as [|e es IH]; intros [|x xs] f E; cbn in E; try discriminate; [reflexivity|].
  injection E as -> E. cbn [map all_lt forallb]. now rewrite (IH xs f E).
Qed.

Lemma event_points cv :
  active_points (event_of cv) = numbers (product (map (fun j => sub j (cv j)) (seq 0 n))).
Proof using Hsp Lsp.
  clear Len Hn Hb.
  unfold event_of. rewrite active_points_map.
  set (cvs := map cv (seq 0 n)). set (es := map en (seq 0 n)).
  assert (D : forall l, deltas spans l = map (fun j => delta spans j l) (seq 0 n)).
  { intros l. unfold deltas. now rewrite Lsp. }
  assert (F : forall l, tm n cv l = all_lt es (map2 Z.add cvs (deltas spans l))).
  { intros l. rewrite D. unfold cvs. rewrite map2_map_seq.
    rewrite (all_lt_map es (seq 0 n) _ eq_refl). reflexivity. }
  assert (G : forall l, map (fun j => Some (cv j + delta spans j l)) (seq 0 n) =
                        map Some (map2 Z.add cvs (deltas spans l))).
  { intros l. rewrite D. unfold cvs. rewrite map2_map_seq, map_map. reflexivity. }
  rewrite (map_ext _ _ G). rewrite (filter_ext _ _ F).
  unfold numbers.
  assert (FM : forall L, map (fun l => map Some (map2 Z.add cvs (deltas spans l)))
                (filter (fun a => all_lt es (map2 Z.add cvs (deltas spans a))) L) =
              map (map Some) (filter (all_lt es) (map (map2 Z.add cvs) (map (deltas spans) L)))).
  { induction L as [|l L IH]; [reflexivity|]. cbn [filter map].
    destruct (all_lt es (map2 Z.add cvs (deltas spans l))); cbn [map]; now rewrite IH. }
  rewrite FM. f_equal.
  replace W with (Z.to_nat (prod spans)) by (destruct Hsp as [_ ->]; lia).
  rewrite deltas_product by apply Hsp.
  assert (SP : map (fun a => zrange 0 a) spans = map (fun j => zrange 0 (sp j)) (seq 0 n)).
  { rewrite <- Lsp. unfold sp. now rewrite (map_nth_seq (fun a => zrange 0 a)). }
  rewrite SP. rewrite product_map by (unfold cvs; now rewrite !map_length).
  unfold cvs. rewrite map2_map_seq.
  rewrite product_filter by (unfold es; now rewrite !map_length).
  unfold es. rewrite map2_map_seq. f_equal. apply map_ext. intros j.
  rewrite zrange_shift, zrange_filter. unfold sub. f_equal. lia. 
Qed.

(** *** Reachability *)

Definition reach (x y : fstate) : Prop := exists m, Nat.iter m step x = y.

Lemma reach_refl x : reach x x.
Proof. exists O; reflexivity. Qed.

Lemma reach_step x y : reach (step x) y -> reach x y.
Proof.
  intros (m & <-). exists (S m). unfold Nat.iter. induction m as [|m IH]; [reflexivity|].
  cbn [nat_rect] in *. now rewrite IH.
Qed.

Lemma reach_trans x y z : reach x y -> reach y z -> reach x z.
Proof.
  intros (a & <-) (b & <-). exists (b + a)%nat. unfold Nat.iter.
  induction b as [|b IH]; [reflexivity|].
  cbn [plus nat_rect]. now rewrite IH.
Qed.

Definition frame (i : nat) (x y : fstate) : Prop :=
  forall j, (j < i)%nat ->
    counter y j = counter x j /\ dimvar y j = dimvar x j /\ extras y j = extras x j /\ in_extras y j = in_extras x j.

Lemma frame_refl i x : frame i x x.
Proof. intros j Hj; auto. Qed.
Lemma frame_trans i x y z : frame i x y -> frame i y z -> frame i x z.
Proof.
  intros H1 H2 j Hj. destruct (H1 j Hj) as (A & B & C & D), (H2 j Hj) as (A' & B' & C' & D').
  repeat split; congruence.
Qed.

Definition outer (i : nat) (cv : nat -> Z) (x : fstate) : Prop :=
  forall j, (j < i)%nat ->
    reachable_counter j (cv j) /\ cv j < en j /\
    counter x j = Some (cv j) /\
    dimvar x j = map (fun l => Some (cv j + delta spans j l)) (lanes W) /\
    extras x j = mask_of (S j) cv /\
    in_extras x j = Some (inx (S j) cv).

Lemma outer_frame i cv x y : outer i cv x -> frame i x y -> outer i cv y.
Proof.
  intros H F j Hj. destruct (H j Hj) as (A & B & C & D & E & G), (F j Hj) as (F1 & F2 & F3 & F4).
  repeat split; try congruence; apply A.
Qed.

(* a mask that is on wherever no outer dimension is in its extras *)
Lemma not_in_extras i cv : (forall j, (j < i)%nat -> (j < n)%nat /\ reachable_counter j (cv j) /\ cv j < en j) ->
  inx i cv = false -> forall l, tm i cv l = true.
Proof.
  intros H E l. unfold tm. apply forallb_forall. intros j Hj. apply in_seq in Hj.
  destruct (H j ltac:(lia)) as (Hjn & [R _] & Hc).
  assert (P : partial j (cv j) = false).
  { unfold inx in E. destruct (partial j (cv j)) eqn:P; [|reflexivity].
    rewrite <- E. symmetry. apply existsb_exists. exists j. split; [apply in_seq; lia|exact P]. }
  pose proof (delta_range spans j l (proj1 Hsp) ltac:(lia)) as D. fold (sp j) in D.
  apply Z.ltb_lt. destruct (aligned_cases j (cv j) Hjn R Hc) as [C|C]; [lia|].
  exfalso. unfold partial in P. apply andb_false_iff in P as [P|P]; [apply Z.ltb_ge in P|apply Z.eqb_neq in P]; lia.
Qed.

Definition with_last (cv : nat -> Z) (c : Z) : nat -> Z := upd cv k c.

Lemma with_last_k cv c : with_last cv c k = c.
Proof. unfold with_last, upd. now rewrite Nat.eqb_refl. Qed.
Lemma with_last_lt cv c j : (j < k)%nat -> with_last cv c j = cv j.
Proof. unfold with_last, upd. intros H. destruct (Nat.eqb_spec j k); [lia|reflexivity]. Qed.

Lemma forallb_ext_in {A} (f g : A -> bool) xs : (forall x, In x xs -> f x = g x) -> forallb f xs = forallb g xs.
Proof. induction xs as [|x xs IH]; intros H; cbn; [reflexivity|]. rewrite H by now left. f_equal. apply IH; intros; apply H; now right. Qed.

Lemma tm_ext i cv cv' l : (forall j, (j < i)%nat -> cv j = cv' j) -> tm i cv l = tm i cv' l.
Proof. intros H. unfold tm. apply forallb_ext_in. intros j Hj. apply in_seq in Hj. now rewrite H by lia. Qed.

Lemma existsb_ext_in {A} (f g : A -> bool) xs : (forall x, In x xs -> f x = g x) -> existsb f xs = existsb g xs.
Proof. induction xs as [|x xs IH]; intros H; cbn; [reflexivity|]. rewrite H by now left. f_equal. apply IH; intros; apply H; now right. Qed.

Lemma inx_ext i cv cv' : (forall j, (j < i)%nat -> cv j = cv' j) -> inx i cv = inx i cv'.
Proof. intros H. unfold inx. apply existsb_ext_in. intros j Hj. apply in_seq in Hj. now rewrite H by lia. Qed.

Lemma tm_full cv c l : tm n (with_last cv c) l = tm k cv l && (c + delta spans k l <? en k).
Proof.
  replace n with (S k) at 1 by lia. rewrite tm_S, with_last_k. f_equal.
  apply tm_ext. intros j Hj. now apply with_last_lt.
Qed.

(* running the body *)
Lemma run_body_event next x cv c m :
  outer k cv x ->
  dimvar x k = map (fun l => Some (c + delta spans k l)) (lanes W) ->
  imask x = map (fun l => Some (m l)) (lanes W) ->
  (forall l, m l = tm n (with_last cv c) l) ->
  run_body W starts next x =
  FState next (counter x) (dimvar x) (extras x) (in_extras x) (imask x) (step_index x)
         (trace x ++ [event_of (with_last cv c)]).
Proof.
  intros O D M Hm. unfold run_body. rewrite M, all_defined_map. do 3 f_equal.
  unfold event_of. f_equal; [now apply map_ext|].
  apply map_ext_in. intros l Hl. apply map_ext_in. intros j Hj.
  unfold lanes in Hl. apply in_seq in Hl, Hj. unfold nDims in Hj.
  assert (E : dimvar x j = map (fun l => Some (with_last cv c j + delta spans j l)) (lanes W)).
  { destruct (Nat.eq_dec j k) as [->|].
    - rewrite with_last_k. exact D.
    - rewrite with_last_lt by lia. destruct (O j ltac:(lia)) as (_ & _ & _ & E & _). exact E. }
  rewrite E. unfold lanes. rewrite (nth_indep _ None (Some (with_last cv c j + delta spans j 0%nat))).
  2:{ rewrite map_length, seq_length. lia. }
  rewrite (map_nth (fun l => Some (with_last cv c j + delta spans j l)) (seq 0 W) 0%nat l).
  rewrite seq_nth by lia. reflexivity.
Qed.

(* start counters of the chunks from c on, [q] of them *)
Definition chunks (i : nat) (c : Z) (q : nat) : list Z := map (fun m => c + Z.of_nat m * sp i) (seq 0 q).
(* [q] chunks starting at c reach the end *)
Definition last_chunk (i : nat) (c : Z) (q : nat) : Prop :=
  match q with
  | O => en i <= c
  | S q' => c + Z.of_nat q' * sp i < en i <= c + Z.of_nat q * sp i
  end.

Lemma chunks_S i c q : chunks i c (S q) = c :: chunks i (c + sp i) q.
Proof.
  unfold chunks. cbn [seq map]. f_equal; [lia|]. rewrite <- seq_shift, map_map.
  apply map_ext. intros m. lia.
Qed.

Lemma last_chunk_S i c q : last_chunk i c (S q) -> last_chunk i (c + sp i) q.
Proof. unfold last_chunk. destruct q; lia. Qed.

Lemma last_chunk_lt i c q : (i < n)%nat -> last_chunk i c (S q) -> c < en i.
Proof. intros Hi. pose proof (sp_pos i Hi). unfold last_chunk. nia. Qed.

Lemma last_chunk_exists i c : (i < n)%nat -> exists q, last_chunk i c q.
Proof.
  intros Hi. pose proof (sp_pos i Hi) as Ha. destruct (Z.le_gt_cases (en i) c) as [|H].
  { exists O. exact H. }
  exists (S (Z.to_nat ((en i - c - 1) / sp i))). unfold last_chunk.
  assert (0 <= (en i - c - 1) / sp i) by (apply Z.div_pos; lia).
  rewrite Nat2Z.inj_succ, Z2Nat.id by lia.
  pose proof (Z.div_mod (en i - c - 1) (sp i) ltac:(lia)).
  pose proof (Z.mod_pos_bound (en i - c - 1) (sp i) Ha). nia.
Qed.

Lemma chunks_cover pre i c q post : (i < n)%nat -> last_chunk i c q ->
  Permutation (flat_map (fun c => product (pre ++ sub i c :: post)) (chunks i c q))
              (product (pre ++ zrange c (en i) :: post)).
Proof.
  intros Hi. pose proof (sp_pos i Hi). revert c. induction q as [|q IH]; intros c H0.
  - cbn in H0. cbn. rewrite zrange_nil by lia. now rewrite product_nil_mid.
  - rewrite chunks_S. cbn [flat_map]. rewrite IH by now apply last_chunk_S.
    pose proof (last_chunk_lt i c q Hi H0) as Hc.
    rewrite <- product_split. unfold sub.
    replace (zrange (c + sp i) (en i)) with (zrange (Z.min (c + sp i) (en i)) (en i)).
    + rewrite <- zrange_app by lia. reflexivity.
    + destruct (Z.le_gt_cases (c + sp i) (en i)); [now rewrite Z.min_l by lia|].
      rewrite !zrange_nil; [reflexivity| |]; lia.
Qed.

(** *** The innermost dimension *)

Definition pre_of (i : nat) (cv : nat -> Z) : list (list Z) := map (fun j => sub j (cv j)) (seq 0 i).

Definition inner_points (cv : nat -> Z) (cs : list Z) : list (list Z) :=
  flat_map (fun c => product (pre_of k cv ++ [sub k c])) cs.

Lemma event_points_last cv c :
  active_points (event_of (with_last cv c)) = numbers (product (pre_of k cv ++ [sub k c])).
Proof.
  rewrite event_points. do 2 f_equal. replace n with (S k) at 1 by lia. rewrite seq_S, map_app. cbn [map].
  rewrite with_last_k. f_equal. unfold pre_of. apply map_ext_in. intros j Hj. apply in_seq in Hj.
  now rewrite with_last_lt by lia.
Qed.

Definition has_active (ev : event) : Prop := In true (ev_mask ev) /\ active_points ev <> [].

Lemma delta_0 j : delta spans j 0 = 0.
Proof. unfold delta. now rewrite Zdiv_0_l, Zmod_0_l. Qed.

Lemma event_has_active cv : (forall j, (j < n)%nat -> cv j < en j) -> has_active (event_of cv).
Proof using Hsp.
  clear Len Hn Hb Lsp.
  intros H.
  assert (T0 : tm n cv 0 = true).
  { unfold tm. apply forallb_forall. intros j Hj. apply in_seq in Hj. rewrite delta_0.
    apply Z.ltb_lt. specialize (H j). lia. }
  assert (L0 : In 0%nat (lanes W)) by (unfold lanes; apply in_seq; pose proof W_pos; lia).
  unfold has_active. split.
  - unfold event_of. cbn [ev_mask]. apply in_map_iff. exists 0%nat. auto.
  - unfold event_of. rewrite active_points_map. 
    assert (I : In 0%nat (filter (tm n cv) (lanes W))) by (apply filter_In; auto).
    destruct (filter (tm n cv) (lanes W)); [destruct I|discriminate].
Qed.

Definition inner_result (cv : nat -> Z) (q : nat) (c : Z) (x y : fstate) : Prop :=
  reach x y /\ pc y = Reset k /\ frame k x y /\
  exists tr, trace y = trace x ++ tr /\
    processed tr = numbers (inner_points cv (chunks k c q)) /\
    (st_ k <= en k -> Forall has_active tr).

Lemma kn : (k < n)%nat.
Proof. lia. Qed.

Lemma frame_k_refl x : frame k x x.
Proof. apply frame_refl. Qed.

Lemma numbers_app a b : numbers (a ++ b) = numbers a ++ numbers b.
Proof. apply map_app. Qed.

Lemma processed_cons ev tr : processed (ev :: tr) = active_points ev ++ processed tr.
Proof. reflexivity. Qed.

Lemma trace_cons (t : list event) ev tr : (t ++ [ev]) ++ tr = t ++ ev :: tr.
Proof. now rewrite <- app_assoc. Qed.

Lemma map_some_true : all_on W = map (fun _ => Some true) (lanes W).
Proof.
  assert (G : forall w m, repeat (Some true) w = map (fun _ : nat => Some true) (seq m w)).
  { induction w as [|w IH]; intros m; cbn; [reflexivity|]. f_equal. apply IH. }
  apply G.
Qed.

Lemma emask_map i (f : nat -> Z) xs : emask ends i (map (fun l => Some (f l)) xs) = map (fun l => Some (f l <? en i)) xs.
Proof. unfold emask. rewrite map_map. apply map_ext. reflexivity. Qed.

Lemma last_dim_k : last_dim starts = k.
Proof. reflexivity. Qed.

Ltac stepone E := apply reach_step; unfold fstep at 1; rewrite E; cbn [fstep].

Lemma frame_upd_k x pc' cnt dv ex ie im si tr :
  (forall j, (j < k)%nat -> cnt j = counter x j) ->
  (forall j, (j < k)%nat -> dv j = dimvar x j) ->
  (forall j, (j < k)%nat -> ex j = extras x j) ->
  (forall j, (j < k)%nat -> ie j = in_extras x j) ->
  frame k x (FState pc' cnt dv ex ie im si tr).
Proof. intros A B C D j Hj. cbn. auto. Qed.

Lemma upd_k_lt {A} (f : nat -> A) v j : (j < k)%nat -> upd f k v j = f j.
Proof. intros H. unfold upd. destruct (Nat.eqb_spec j k); [lia|reflexivity]. Qed.
Lemma upd_k_k {A} (f : nat -> A) i v : upd f i v i = v.
Proof. unfold upd. now rewrite Nat.eqb_refl. Qed.

Lemma inner_not_in_extras cv q : forall c x,
  pc x = OuterNotInExtras -> outer k cv x -> inx k cv = false ->
  counter x k = Some c -> reachable_counter k c -> last_chunk k c q ->
  exists y, inner_result cv q c x y.
Proof.
  pose proof kn as Hk. 
  induction q as [|q IH]; intros c x Hpc Ho Hix Hc Hr Hq.
  - (* no chunk left *)
    cbn in Hq.
    exists (set_pc (Reset k) x).
    assert (E1 : step x = set_pc PartialInnerAllOuter x).
    { unfold fstep. rewrite Hpc, last_dim_k, Hc, alignedEnd_some by lia. cbn.
      destruct (Z.ltb_spec c (ae k)) as [L|L]; [|reflexivity].
      exfalso. eapply not_before_aligned; eauto. apply Hr. }
    assert (E2 : step (step x) = set_pc (Reset k) x).
    { rewrite E1. unfold fstep. cbn [pc set_pc]. rewrite last_dim_k. cbn [counter set_pc]. rewrite Hc. cbn.
      fold (en k). destruct (Z.ltb_spec c (en k)); [lia|]. reflexivity. }
    split; [exists 2%nat; exact E2|]. split; [reflexivity|]. split; [intros j Hj; cbn; auto|].
    exists []. split; [symmetry; apply app_nil_r|]. split; [reflexivity|]. intros _; constructor.
  - pose proof (last_chunk_lt k c q Hk Hq) as Hlt.
    assert (Hout : forall j, (j < k)%nat -> (j < n)%nat /\ reachable_counter j (cv j) /\ cv j < en j).
    { intros j Hj. destruct (Ho j Hj) as (A & B & _). auto with zarith. }
    assert (HA : has_active (event_of (with_last cv c))).
    { apply event_has_active. intros j Hj. destruct (Nat.eq_dec j k) as [->|].
      - now rewrite with_last_k.
      - rewrite with_last_lt by lia. apply Hout. lia. }
    destruct (aligned_cases k c Hk (proj1 Hr) Hlt) as [[L1 L2]|[L1 L2]].
    + (* full body *)
      assert (E1 : step x = set_pc FullBody x).
      { unfold fstep. rewrite Hpc, last_dim_k, Hc, alignedEnd_some by lia. cbn.
        destruct (Z.ltb_spec c (ae k)) as [L|L]; [reflexivity|lia]. }
      destruct (step_counter k c Hk Hr Hlt) as [Hr' Hadd].
      set (x1 := set_dimvar k (varying_counter W spans k (Some c)) (set_imask (all_on W) (set_pc FullBody x))).
      assert (Ho1 : outer k cv x1).
      { eapply outer_frame; [exact Ho|]. apply frame_upd_k; intros; cbn; auto. now apply upd_k_lt. }
      assert (Hb1 : run_body W starts OuterNotInExtras x1 =
        FState OuterNotInExtras (counter x1) (dimvar x1) (extras x1) (in_extras x1) (imask x1) (step_index x1)
         (trace x1 ++ [event_of (with_last cv c)])).
      { apply (run_body_event _ _ cv c (fun _ => true)); auto.
        - cbn [dimvar x1 set_dimvar]. unfold x1. cbn. rewrite upd_k_k. apply varying_some; auto; right; lia.
        - unfold x1. cbn. apply map_some_true.
        - intros l. rewrite tm_full. rewrite not_in_extras by auto.
          pose proof (delta_range spans k l (proj1 Hsp) ltac:(lia)) as D. fold (sp k) in D.
          symmetry. cbn. apply Z.ltb_lt. lia. }
      assert (E2 : step (step x) = 
        set_counter k (Some (c + sp k)) (FState OuterNotInExtras (counter x1) (dimvar x1) (extras x1) (in_extras x1) (imask x1) (step_index x1)
         (trace x1 ++ [event_of (with_last cv c)]))).
      { rewrite E1.
        assert (E2' : step (set_pc FullBody x) =
          let s := run_body W starts OuterNotInExtras
                     (set_dimvar k (varying_counter W spans k (counter x k)) (set_imask (all_on W) (set_pc FullBody x))) in
          set_counter k (add_nsw (counter s k) (span spans k)) s) by reflexivity.
        rewrite E2', Hc. fold x1. rewrite Hb1. cbv zeta. f_equal.
        unfold x1. cbn [counter set_dimvar set_imask set_pc]. rewrite Hc. exact Hadd. }
      set (x2 := step (step x)) in *.
      assert (Ho2 : outer k cv x2).
      { eapply outer_frame; [exact Ho1|]. rewrite E2. apply frame_upd_k; intros; cbn; auto. now apply upd_k_lt. }
      destruct (IH (c + sp k) x2) as (y & R & P & F & tr & T1 & T2 & T3).
      { now rewrite E2. } { exact Ho2. } { exact Hix. }
      { rewrite E2. cbn. apply upd_k_k. } { exact Hr'. } { now apply last_chunk_S. }
      exists y. split; [eapply reach_step, reach_step; exact R|]. split; [exact P|]. split.
      * intros j Hj. specialize (F j Hj). rewrite E2 in F. cbn in F. rewrite !upd_k_lt in F by auto. exact F.
      * exists (event_of (with_last cv c) :: tr). rewrite T1, E2. cbn [trace set_counter].
        split; [unfold x1; cbn [trace set_dimvar set_imask set_pc]; now rewrite trace_cons|].
        split.
        -- rewrite processed_cons, T2, event_points_last, chunks_S. unfold inner_points. cbn [flat_map].
           now rewrite numbers_app.
        -- intros S. constructor; auto.
    + (* the ragged end *)
      assert (Q0 : q = 0%nat).
      { cbn in Hq. destruct q; [reflexivity|]. rewrite Nat2Z.inj_succ in Hq.
        pose proof (sp_pos k Hk). nia. }
      subst q.
      assert (E1 : step x = set_pc PartialInnerAllOuter x).
      { unfold fstep. rewrite Hpc, last_dim_k, Hc, alignedEnd_some by lia. cbn.
        destruct (Z.ltb_spec c (ae k)) as [L|L]; [lia|reflexivity]. }
      assert (E2 : step (step x) = set_pc SetInnerMask x).
      { rewrite E1. unfold fstep. cbn [pc set_pc]. rewrite last_dim_k. cbn [counter set_pc]. rewrite Hc. cbn.
        fold (en k). destruct (Z.ltb_spec c (en k)); [|lia]. reflexivity. }
      set (v := varying_counter W spans k (Some c)).
      set (x1 := set_pc MaskedBody (set_step_index false (set_imask (emask ends k v) (set_dimvar k v (set_pc SetInnerMask x))))).
      assert (E3 : step (step (step x)) = x1).
      { rewrite E2. unfold fstep. cbn [pc set_pc]. rewrite last_dim_k. cbn [counter set_pc]. rewrite Hc. reflexivity. }
      assert (Hv : v = map (fun l => Some (c + delta spans k l)) (lanes W)) by (apply varying_some; auto; right; lia).
      assert (Ho1 : outer k cv x1).
      { eapply outer_frame; [exact Ho|]. apply frame_upd_k; intros; cbn; auto. now apply upd_k_lt. }
      assert (Hb1 : run_body W starts (Reset k) x1 =
        FState (Reset k) (counter x1) (dimvar x1) (extras x1) (in_extras x1) (imask x1) (step_index x1)
         (trace x1 ++ [event_of (with_last cv c)])).
      { apply (run_body_event _ _ cv c (fun l => c + delta spans k l <? en k)); auto.
        - unfold x1. cbn. now rewrite upd_k_k.
        - unfold x1. cbn. rewrite Hv. apply emask_map.
        - intros l. rewrite tm_full. now rewrite not_in_extras by auto. }
      exists (step (step (step (step x)))). split; [exists 4%nat; reflexivity|].
      assert (E4 : step (step (step (step x))) =
        FState (Reset k) (counter x1) (dimvar x1) (extras x1) (in_extras x1) (imask x1) (step_index x1)
         (trace x1 ++ [event_of (with_last cv c)])).
      { rewrite E3. unfold fstep. change (pc x1) with MaskedBody. change (step_index x1) with false. exact Hb1. }
      rewrite E4. split; [reflexivity|]. split; [apply frame_upd_k; intros; cbn; auto; now apply upd_k_lt|].
      exists [event_of (with_last cv c)]. cbn [trace]. split; [reflexivity|]. split; [|auto].
      rewrite processed_cons, event_points_last, chunks_S. unfold inner_points, chunks. cbn [flat_map seq map processed].
      now rewrite app_nil_r, app_nil_r.
Qed.

Lemma inner_in_extras cv q : forall c x, (0 < k)%nat ->
  pc x = OuterInExtras -> outer k cv x ->
  counter x k = Some c -> reachable_counter k c -> (c = st_ k \/ c <= en k) -> last_chunk k c q ->
  exists y, inner_result cv q c x y.
Proof.
  pose proof kn as Hk.
  induction q as [|q IH]; intros c x Hk0 Hpc Ho Hc Hr Hce Hq.
  all: set (v := varying_counter W spans k (Some c)).
  all: assert (Hv : v = map (fun l => Some (c + delta spans k l)) (lanes W)) by (apply varying_some; auto).
  all: assert (Hex : extras x (pred k) = mask_of k cv)
         by (destruct (Ho (pred k) ltac:(lia)) as (_ & _ & _ & _ & E & _); rewrite E; f_equal; lia).
  all: assert (N1 : Nat.eqb (nDims starts) 1 = false) by (unfold nDims; apply Nat.eqb_neq; lia).
  (* the ragged end / no item left: the block Partial *)
  all: set (x1 := set_dimvar k v (set_pc Partial x)).
  all: set (x2 := set_pc MaskedBody (set_step_index false
                    (set_imask (vmap2 band (extras x (pred k)) (emask ends k v)) x1))).
  all: assert (Ho2 : outer k cv x2)
         by (eapply outer_frame; [exact Ho|]; apply frame_upd_k; intros; cbn; auto; now apply upd_k_lt).
  all: assert (Hb2 : run_body W starts (Reset k) x2 =
        FState (Reset k) (counter x2) (dimvar x2) (extras x2) (in_extras x2) (imask x2) (step_index x2)
         (trace x2 ++ [event_of (with_last cv c)])).
  1,3: (apply (run_body_event _ _ cv c (fun l => tm k cv l && (c + delta spans k l <? en k))); auto;
        [ unfold x2, x1; cbn; now rewrite upd_k_k
        | unfold x2, x1; cbn [imask set_imask set_pc set_step_index]; rewrite Hex, Hv, emask_map; apply vmap2_band
        | intros l; now rewrite tm_full ]).
  all: assert (P1 : ~ c < ae k -> step x = x1)
         by (intros L; unfold fstep; rewrite Hpc, last_dim_k, Hc, alignedEnd_some by lia; cbn [slt];
             destruct (Z.ltb_spec c (ae k)); [lia|reflexivity]).
  all: assert (P2 : c <> en k -> step x1 = x2)
         by (intros L; unfold fstep; change (pc x1) with Partial; cbv iota;
             rewrite last_dim_k; change (counter x1 k) with (counter x k); rewrite Hc, N1;
             change (dimvar x1 k) with (upd (dimvar x) k v k); rewrite upd_k_k; cbn [icmp_eq option_map end_];
             fold (en k); destruct (Z.eqb_spec c (en k)); [lia|reflexivity]).
  all: assert (P3 : step x2 = FState (Reset k) (counter x2) (dimvar x2) (extras x2) (in_extras x2) (imask x2) (step_index x2)
         (trace x2 ++ [event_of (with_last cv c)])) by (rewrite <- Hb2; reflexivity).
  - cbn in Hq. 
    assert (L : ~ c < ae k) by (intros L; eapply not_before_aligned; eauto; apply Hr).
    destruct (Z.eq_dec c (en k)) as [E|NE].
    + exists (set_pc (Reset k) (set_step_index false
                    (set_imask (vmap2 band (extras x (pred k)) (emask ends k v)) x1))).
      split; [exists 2%nat|].
      { cbn [Nat.iter nat_rect]. rewrite P1 by auto.
        unfold fstep; change (pc x1) with Partial; cbv iota;
        rewrite last_dim_k; change (counter x1 k) with (counter x k); rewrite Hc, N1;
        change (dimvar x1 k) with (upd (dimvar x) k v k); rewrite upd_k_k; cbn [icmp_eq option_map end_];
        fold (en k). destruct (Z.eqb_spec c (en k)); [reflexivity|lia]. }
      split; [reflexivity|]. split; [apply frame_upd_k; intros; cbn; auto; now apply upd_k_lt|].
      exists []. split; [symmetry; apply app_nil_r|]. split; [reflexivity|]. intros _; constructor.
    + exists (step x2). split; [exists 3%nat; cbn [Nat.iter nat_rect]; now rewrite P1, P2 by auto|].
      rewrite P3. split; [reflexivity|]. split; [apply frame_upd_k; intros; cbn; auto; now apply upd_k_lt|].
      exists [event_of (with_last cv c)]. split; [reflexivity|]. split; [|lia].
      rewrite processed_cons, event_points_last. unfold sub. rewrite zrange_nil by lia.
      rewrite product_nil_mid. reflexivity.
  - pose proof (last_chunk_lt k c q Hk Hq) as Hlt.
    assert (HA : has_active (event_of (with_last cv c))).
    { apply event_has_active. intros j Hj. destruct (Nat.eq_dec j k) as [->|].
      - now rewrite with_last_k.
      - rewrite with_last_lt by lia. apply (Ho j ltac:(lia)). }
    destruct (aligned_cases k c Hk (proj1 Hr) Hlt) as [[L1 L2]|[L1 L2]].
    + destruct (step_counter k c Hk Hr Hlt) as [Hr' Hadd].
      set (y1 := set_dimvar k v (set_pc AllInnerPartialOuter x)).
      set (y2 := set_pc MaskedBody (set_step_index true (set_imask (extras x (pred k)) y1))).
      assert (Q1 : step x = y1).
      { unfold fstep; rewrite Hpc, last_dim_k, Hc, alignedEnd_some by lia; cbn [slt];
        destruct (Z.ltb_spec c (ae k)); [reflexivity|lia]. }
      assert (Q2 : step y1 = y2).
      { unfold fstep; change (pc y1) with AllInnerPartialOuter; cbv iota. rewrite N1, last_dim_k. reflexivity. }
      assert (Hoy : outer k cv y2).
      { eapply outer_frame; [exact Ho|]; apply frame_upd_k; intros; cbn; auto; now apply upd_k_lt. }
      assert (Hby : run_body W starts StepInnerIndex y2 =
        FState StepInnerIndex (counter y2) (dimvar y2) (extras y2) (in_extras y2) (imask y2) (step_index y2)
         (trace y2 ++ [event_of (with_last cv c)])).
      { apply (run_body_event _ _ cv c (tm k cv)); auto.
        - unfold y2, y1; cbn; now rewrite upd_k_k.
        - intros l. rewrite tm_full.
          pose proof (delta_range spans k l (proj1 Hsp) ltac:(lia)) as D. fold (sp k) in D.
          destruct (Z.ltb_spec (c + delta spans k l) (en k)); [now rewrite andb_true_r|lia]. }
      set (y4 := step (step y2)).
      assert (Q4 : y4 = set_counter k (Some (c + sp k)) (FState OuterInExtras (counter y2) (dimvar y2) (extras y2)
                 (in_extras y2) (imask y2) (step_index y2) (trace y2 ++ [event_of (with_last cv c)]))).
      { unfold y4. replace (step y2) with (run_body W starts StepInnerIndex y2) by reflexivity.
        rewrite Hby. unfold fstep. cbn [pc]. rewrite last_dim_k. cbn [counter].
        change (counter y2 k) with (counter x k). rewrite Hc. unfold span. fold (sp k). rewrite Hadd. reflexivity. }
      destruct (IH (c + sp k) y4) as (y & R & P & F & tr & T1 & T2 & T3); auto.
      { now rewrite Q4. }
      { eapply outer_frame; [exact Hoy|]. rewrite Q4. apply frame_upd_k; intros; cbn; auto; now apply upd_k_lt. }
      { rewrite Q4. cbn. apply upd_k_k. }
      { now apply last_chunk_S. }
      exists y. split.
      { eapply reach_trans; [|exact R]. exists 4%nat. cbn [Nat.iter nat_rect]. now rewrite Q1, Q2. }
      split; [exact P|]. split.
      * intros j Hj. specialize (F j Hj). rewrite Q4 in F. cbn in F. rewrite !upd_k_lt in F by auto. exact F.
      * exists (event_of (with_last cv c) :: tr). rewrite T1, Q4. cbn [trace set_counter].
        split; [unfold y2, y1; cbn [trace set_dimvar set_imask set_pc set_step_index]; now rewrite trace_cons|].
        split.
        -- rewrite processed_cons, T2, event_points_last, chunks_S. unfold inner_points. cbn [flat_map].
           now rewrite numbers_app.
        -- intros S. constructor; auto.
    + assert (Q0 : q = 0%nat).
      { cbn in Hq. destruct q; [reflexivity|]. rewrite Nat2Z.inj_succ in Hq.
        pose proof (sp_pos k Hk). nia. }
      subst q.
      exists (step x2). split; [exists 3%nat; cbn [Nat.iter nat_rect]; now rewrite P1, P2 by lia|].
      rewrite P3. split; [reflexivity|]. split; [apply frame_upd_k; intros; cbn; auto; now apply upd_k_lt|].
      exists [event_of (with_last cv c)]. split; [reflexivity|]. split; [|auto].
      rewrite processed_cons, event_points_last, chunks_S. unfold inner_points, chunks. cbn [flat_map seq map processed].
      now rewrite app_nil_r, app_nil_r.
Qed.

(** *** All dimensions *)

(* the points of the box with the coordinates of dimensions < i restricted to the current chunk *)
Definition rest_points (i : nat) (cv : nat -> Z) (c : Z) : list (list Z) :=
  product (pre_of i cv ++ zrange c (en i) :: map (fun j => zrange (st_ j) (en j)) (seq (S i) (n - S i))).

Definition level_result (i : nat) (cv : nat -> Z) (c : Z) (x y : fstate) : Prop :=
  reach x y /\ pc y = Reset i /\ frame i x y /\
  (forall j, (i < j < n)%nat -> counter y j = Some (st_ j)) /\
  exists tr, trace y = trace x ++ tr /\
    Permutation (processed tr) (numbers (rest_points i cv c)) /\
    (st_ k <= en k -> Forall has_active tr).

Lemma numbers_perm a b : Permutation a b -> Permutation (numbers a) (numbers b).
Proof. apply Permutation_map. Qed.

Lemma start_reachable i : reachable_counter i (st_ i).
Proof. split; [exists 0; lia|]. now left. Qed.

Lemma level_last cv c x :
  pc x = Test k -> outer k cv x -> counter x k = Some c -> reachable_counter k c -> (c = st_ k \/ c <= en k) ->
  exists y, level_result k cv c x y.
Proof.
  pose proof kn as Hk. intros Hpc Ho Hc Hr Hce.
  destruct (last_chunk_exists k c Hk) as (q & Hq).
  assert (G : exists y, inner_result cv q c x y).
  { assert (E : step x = set_pc (if inx k cv then OuterInExtras else OuterNotInExtras) x).
    { unfold fstep. rewrite Hpc, last_dim_k.
      destruct (Nat.ltb_spec k k); [lia|].
      destruct k as [|k'] eqn:K.
      - reflexivity.
      - destruct (Ho k' ltac:(lia)) as (_ & _ & _ & _ & _ & I). rewrite I. cbn.
        destruct (inx (S k') cv); reflexivity. }
    assert (Ho' : outer k cv (step x)).
    { eapply outer_frame; [exact Ho|]. rewrite E. intros j Hj; cbn; auto. }
    assert (G : exists y, inner_result cv q c (step x) y).
    { destruct (inx k cv) eqn:I.
      - apply inner_in_extras; auto; rewrite ?E; auto. destruct k; [cbn in I; discriminate|lia].
      - apply inner_not_in_extras; auto; rewrite ?E; auto. }
    destruct G as (y & R & P & F & tr & T1 & T2 & T3). exists y.
    split; [now apply reach_step|]. split; [exact P|]. split.
    - intros j Hj. specialize (F j Hj). rewrite E in F. exact F.
    - exists tr. rewrite T1, E. auto. }
  destruct G as (y & R & P & F & tr & T1 & T2 & T3).
  exists y. split; [exact R|]. split; [exact P|]. split; [exact F|]. split; [intros j Hj; lia|].
  exists tr. split; [exact T1|]. split; [|exact T3].
  rewrite T2. apply numbers_perm. unfold inner_points, rest_points.
  replace (n - S k)%nat with O by lia. cbn [seq map]. now apply chunks_cover.
Qed.

Definition advance (cv : nat -> Z) (i : nat) (c : Z) : nat -> Z := upd cv i c.

Lemma pre_of_S i cv c : pre_of (S i) (advance cv i c) = pre_of i cv ++ [sub i c].
Proof.
  unfold pre_of. rewrite seq_S, map_app. cbn [map plus]. unfold advance. rewrite upd_k_k. f_equal.
  apply map_ext_in. intros j Hj. apply in_seq in Hj. unfold upd. destruct (Nat.eqb_spec j i); [lia|reflexivity].
Qed.

Lemma level d : forall i, (d + i = k)%nat -> forall cv q c x,
  pc x = Test i -> outer i cv x -> counter x i = Some c -> reachable_counter i c -> (c = st_ i \/ d = O -> c = st_ i \/ c <= en i) ->
  last_chunk i c q ->
  (forall j, (i < j < n)%nat -> counter x j = Some (st_ j)) ->
  exists y, level_result i cv c x y.
Proof.
  pose proof kn as Hk.
  induction d as [|d IHd]; intros i Hi.
  { intros cv q c x Hpc Ho Hc Hr Hce Hq Hcs. assert (i = k) by lia. subst i.
    apply level_last; auto. }
  intros cv q. induction q as [|q IHq]; intros c x Hpc Ho Hc Hr Hce Hq Hcs.
  all: assert (Hin : (i < n)%nat) by lia.
  all: assert (ELT : Nat.ltb i k = true) by (apply Nat.ltb_lt; lia).
  all: set (v := varying_counter W spans i (Some c)).
  all: set (em := match i with O => emask ends i v | S i' => vmap2 band (extras x i') (emask ends i v) end).
  all: set (ie0 := band (slt (alignedEnd spans starts ends i) (end_ ends i)) (icmp_eq (Some c) (alignedEnd spans starts ends i))).
  all: set (ie := match i with O => ie0 | S i' => bor ie0 (in_extras x i') end).
  all: assert (E : step x = set_pc (if c <? en i then Test (S i) else Reset i)
                     (set_extras i em (set_dimvar i v (set_in_extras i ie x))))
         by (unfold fstep; rewrite Hpc, last_dim_k, ELT, Hc; cbn [slt end_ branch]; fold (en i);
             destruct (c <? en i); reflexivity).
  - cbn in Hq. exists (step x). split; [exists 1%nat; reflexivity|]. rewrite E.
    destruct (Z.ltb_spec c (en i)); [lia|]. split; [reflexivity|].
    split.
    { intros j Hj. cbn. unfold upd. destruct (Nat.eqb_spec j i); [lia|auto]. }
    split; [intros j Hj; cbn; now apply Hcs|].
    exists []. split; [symmetry; apply app_nil_r|]. split; [|intros _; constructor].
    unfold rest_points. rewrite zrange_nil by lia. now rewrite product_nil_mid.
  - pose proof (last_chunk_lt i c q Hin Hq) as Hlt.
    destruct (Z.ltb_spec c (en i)) as [_|]; [|lia].
    destruct (step_counter i c Hin Hr Hlt) as [Hr' Hadd].
    set (cv' := advance cv i c).
    assert (CV : forall j, (j < i)%nat -> cv' j = cv j).
    { intros j Hj. unfold cv', advance, upd. destruct (Nat.eqb_spec j i); [lia|reflexivity]. }
    assert (CVi : cv' i = c) by apply upd_k_k.
    assert (Hv : v = map (fun l => Some (c + delta spans i l)) (lanes W)) by (apply varying_some; auto; lia).
    assert (Ho1 : outer (S i) cv' (step x)).
    { intros j Hj. rewrite E. cbn [counter dimvar extras in_extras set_pc set_extras set_dimvar set_in_extras].
      destruct (Nat.eq_dec j i) as [->|].
      - rewrite CVi, !upd_k_k. split; [exact Hr|]. split; [exact Hlt|]. split; [exact Hc|]. split; [exact Hv|].
        assert (EM : emask ends i v = map (fun l => Some (c + delta spans i l <? en i)) (lanes W))
          by (rewrite Hv; apply emask_map).
        assert (IE0 : ie0 = Some (partial i c)).
        { unfold ie0. rewrite alignedEnd_some by auto. reflexivity. }
        split.
        + unfold em. rewrite EM. unfold mask_of. destruct i as [|i'].
          * apply map_ext. intros l. rewrite tm_S, CVi. reflexivity.
          * destruct (Ho i' ltac:(lia)) as (_ & _ & _ & _ & X & _). rewrite X. unfold mask_of.
            rewrite vmap2_band. apply map_ext. intros l. rewrite (tm_S (S i')), CVi. do 2 f_equal.
            symmetry. apply tm_ext. intros; apply CV; lia.
        + unfold ie. rewrite IE0. destruct i as [|i'].
          * rewrite inx_S, CVi. reflexivity.
          * destruct (Ho i' ltac:(lia)) as (_ & _ & _ & _ & _ & X). rewrite X. cbn [bor].
            rewrite (inx_S (S i')), CVi. rewrite orb_comm. do 2 f_equal.
            symmetry. apply inx_ext. intros; apply CV; lia.
      - destruct (Ho j ltac:(lia)) as (A1 & A2 & A3 & A4 & A5 & A6).
        rewrite CV by lia. unfold upd. destruct (Nat.eqb_spec j i); [lia|].
        repeat split; auto; try apply A1.
        + rewrite A5. apply map_ext. intros l. f_equal. symmetry. apply tm_ext. intros; apply CV; lia.
        + rewrite A6. f_equal. symmetry. apply inx_ext. intros; apply CV; lia. }
    destruct (last_chunk_exists (S i) (st_ (S i)) ltac:(lia)) as (q1 & Hq1).
    destruct (IHd (S i) ltac:(lia) cv' q1 (st_ (S i)) (step x)) as (y & R & P & F & CS & tr & T1 & T2 & T3).
    { rewrite E. reflexivity. } { exact Ho1. } { rewrite E. cbn. apply Hcs. lia. }
    { apply start_reachable. } { now left. } { exact Hq1. }
    { intros j Hj. rewrite E. cbn. apply Hcs. lia. }
    (* Reset (S i); Step i *)
    set (y2 := set_pc (Test i) (set_counter i (Some (c + sp i))
                 (set_pc (Step i) (set_counter (S i) (start starts (S i)) (set_extras (S i) (all_on W) y))))).
    assert (E2 : step (step y) = y2).
    { assert (E1 : step y = set_pc (Step i) (set_counter (S i) (start starts (S i)) (set_extras (S i) (all_on W) y))).
      { unfold fstep. rewrite P. reflexivity. }
      rewrite E1. unfold fstep. cbn [pc set_pc]. cbn [counter set_pc set_counter set_extras].
      unfold y2. f_equal. f_equal. unfold upd at 1. destruct (Nat.eqb_spec i (S i)); [lia|].
      destruct (F i ltac:(lia)) as (F1 & _). rewrite F1. destruct (Ho1 i ltac:(lia)) as (_ & _ & X & _).
      rewrite X, CVi. exact Hadd. }
    assert (FR : frame i x y2).
    { intros j Hj. unfold y2. cbn [counter dimvar extras in_extras set_pc set_extras set_counter].
      unfold upd. destruct (Nat.eqb_spec j i); [lia|]. destruct (Nat.eqb_spec j (S i)); [lia|].
      destruct (F j ltac:(lia)) as (F1 & F2 & F3 & F4). rewrite F1, F2, F3, F4, E.
      cbn [counter dimvar extras in_extras set_pc set_extras set_dimvar set_in_extras].
      unfold upd. destruct (Nat.eqb_spec j i); [lia|auto]. }
    destruct (IHq (c + sp i) y2) as (z & R' & P' & F' & CS' & tr' & T1' & T2' & T3').
    { reflexivity. } { eapply outer_frame; eauto. } { unfold y2. cbn. apply upd_k_k. } { exact Hr'. }
    { intros [H|H]; [left; exact H|discriminate]. } { now apply last_chunk_S. }
    { intros j Hj. unfold y2. cbn. unfold upd. destruct (Nat.eqb_spec j i); [lia|].
      destruct (Nat.eqb_spec j (S i)) as [->|]; [reflexivity|]. apply CS. lia. }
    exists z. split.
    { apply reach_step. eapply reach_trans; [exact R|]. apply reach_step, reach_step. now rewrite E2. }
    split; [exact P'|]. split; [eapply frame_trans; eauto|]. split; [exact CS'|].
    exists (tr ++ tr'). split; [|split].
    + rewrite T1'. unfold y2. cbn [trace set_pc set_extras set_counter]. rewrite T1, E.
      cbn [trace set_pc set_extras set_dimvar set_in_extras]. now rewrite app_assoc.
    + unfold processed in *. rewrite flat_map_app, T2, T2', <- numbers_app. apply numbers_perm.
      unfold rest_points, cv'. rewrite pre_of_S, <- app_assoc. cbn [app].
      replace (zrange (st_ (S i)) (en (S i)) :: map (fun j => zrange (st_ j) (en j)) (seq (S (S i)) (n - S (S i))))
        with (map (fun j => zrange (st_ j) (en j)) (seq (S i) (n - S i))).
      2:{ replace (n - S i)%nat with (S (n - S (S i))) by lia. reflexivity. }
      rewrite <- product_split. pose proof (sp_pos i Hin). unfold sub.
      replace (zrange (c + sp i) (en i)) with (zrange (Z.min (c + sp i) (en i)) (en i)).
      * rewrite <- zrange_app by lia. reflexivity.
      * destruct (Z.le_gt_cases (c + sp i) (en i)); [now rewrite Z.min_l by lia|].
        rewrite !zrange_nil; [reflexivity| |]; lia.
    + intros S. apply Forall_app. auto.
Qed.

Lemma box_eq : box starts ends = product (map (fun j => zrange (st_ j) (en j)) (seq 0 n)).
Proof.
  unfold box. f_equal. unfold st_, en. rewrite <- Len. 
  assert (G : forall (a b : list Z), length b = length a ->
    map (fun p => zrange (fst p) (snd p)) (combine a b) =
    map (fun j => zrange (nth j a 0) (nth j b 0)) (seq 0 (length b))).
  { induction a as [|x a IH]; intros [|y b] H; cbn in H; try discriminate; [reflexivity|].
    cbn [combine map length seq nth fst snd]. f_equal. rewrite <- seq_shift, map_map. apply IH. lia. }
  apply G. exact Len.
Qed.

Theorem foreach_machine : exists tr m, 
  let y := Nat.iter m step (init W starts) in
  pc y = Exit /\ trace y = tr /\
  Permutation (processed tr) (numbers (box starts ends)) /\
  (st_ k <= en k -> Forall has_active tr).
Proof.
  destruct (last_chunk_exists 0 (st_ 0) Hn) as (q & Hq).
  destruct (level k 0 ltac:(lia) (fun _ => 0) q (st_ 0) (init W starts)) as (y & (m & R) & P & _ & _ & tr & T1 & T2 & T3).
  { reflexivity. } { intros j Hj; lia. } { reflexivity. } { apply start_reachable. } { now left. } { exact Hq. }
  { intros j Hj. reflexivity. }
  exists tr, (S m). change (Nat.iter (S m) step (init W starts)) with (step (Nat.iter m step (init W starts))).
  rewrite R. assert (E : step y = set_pc Exit y) by (unfold fstep; rewrite P; reflexivity).
  cbv zeta. rewrite E. split; [reflexivity|]. split; [exact T1|]. split; [|exact T3].
  rewrite T2. unfold rest_points. cbn [pre_of seq map app]. rewrite box_eq.
  replace (zrange (st_ 0) (en 0) :: map (fun j => zrange (st_ j) (en j)) (seq 1 (n - 1)))
    with (map (fun j => zrange (st_ j) (en j)) (seq 0 n)); [reflexivity|].
  replace n with (S (n - 1)) at 1 by lia. reflexivity.
Qed.

End Machine.
