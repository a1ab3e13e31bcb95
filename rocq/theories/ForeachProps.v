(** Properties of foreach, foreach_tiled, foreach_active, foreach_unique and varying calls. *)
From Coq Require Import ZArith List Bool Lia Permutation SpecFloat.
From Verif Require Import Bits LanesModel LanesSpec ForeachModel ForeachSpec ForeachProofs ForeachProofs2
  ForeachProofs3 ForeachProofs4.
Import ListNotations.
Local Open Scope Z_scope.

(** ** C06 *)

(* foreach (i = a ... b): the body runs for a, a+1, ..., b-1, each once, in order; every execution of
   the body has an active instance. *)
Theorem C06_foreach_visits_range_in_order :
  forall (W : nat) (tiled : bool) (a b : Z), (0 < W)%nat -> is_int32 a -> is_int32 b ->
  no_index_overflow W a b ->
  exists tr, foreach_does W tiled [a] [b] tr /\
    processed tr = numbers (map (fun i => [i]) (zrange a b)) /\
    Forall (fun ev => In true (ev_mask ev)) tr.
Proof.
  intros W tiled a b HW Ha Hb Hno.
  destruct (foreach1_defined W a b HW Ha Hb Hno) as (m & tr & P & T & Q & F).
  exists tr. split; [|split; [exact Q|]].
  - exists m. cbv zeta. split; assumption.
  - eapply Forall_impl; [|exact F]. intros ev [H _]. exact H.
Qed.
Print Assumptions C06_foreach_visits_range_in_order.

Example C06_example : no_index_overflow 8 (-3) 18 /\ zrange (-3) 2 = [-3; -2; -1; 0; 1].
Proof. split; [|reflexivity]. split; [lia|]. intros _. cbn. lia. Qed.

(* Nothing runs when b <= a. *)
Theorem C06_foreach_empty_range :
  forall (W : nat) (tiled : bool) (a b : Z), (0 < W)%nat -> is_int32 a -> is_int32 b -> b <= a ->
  - 2 ^ 31 <= b - a ->
  foreach_does W tiled [a] [b] [].
Proof.
  intros W tiled a b HW Ha Hb Hba Hr.
  destruct (foreach1_defined W a b HW Ha Hb) as (m & tr & P & T & Q & F).
  { split; [unfold is_int32 in *; lia|]. intros; lia. }
  exists m. cbv zeta. split; [exact P|].
  etransitivity; [exact T|]. destruct tr as [|ev tr]; [reflexivity|]. exfalso.
  rewrite zrange_nil in Q by lia. inversion F as [|? ? [_ H] _]; subst. cbn in Q.
  apply app_eq_nil in Q as [Q _]. contradiction.
Qed.
Print Assumptions C06_foreach_empty_range.

(** ** C07 *)

Lemma nth_bounds W ss es : Forall2 (bounds_in_range W) ss es ->
  length es = length ss /\ forall i, (i < length ss)%nat -> bounds_in_range W (nth i ss 0) (nth i es 0).
Proof.
  induction 1 as [|s e ss es H _ [L IH]]; [split; [reflexivity|intros i Hi; cbn in Hi; lia]|].
  split; [cbn; now rewrite L|]. intros [|i] Hi; [exact H|]. apply IH. cbn in Hi. lia.
Qed.

Lemma foreach_box W tiled ss es : (0 < W)%nat -> (tiled = true -> power_of_two W) -> ss <> [] ->
  Forall2 (bounds_in_range W) ss es ->
  exists tr, foreach_does W tiled ss es tr /\
    Permutation (processed tr) (numbers (box ss es)) /\
    (last ss 0 <= last es 0 -> Forall (fun ev => In true (ev_mask ev)) tr).
Proof.
  intros HW Ht Hne HF. destruct (nth_bounds W ss es HF) as [L B].
  assert (Hlen : (0 < length ss)%nat) by (destruct ss; [congruence|cbn; lia]).
  set (spans := get_spans (pred (length ss)) (Z.of_nat W) tiled).
  assert (OK : spans_ok W spans).
  { unfold spans_ok, spans. destruct tiled.
    - destruct (Ht eq_refl) as (k & ->). apply get_spans_tiled.
    - apply get_spans_untiled. lia. }
  destruct (foreach_machine W spans ss es OK) as (tr & m & P & T & Q & F); auto.
  { unfold spans. rewrite get_spans_length. lia. }
  exists tr. split; [exists m; cbv zeta; split; assumption|]. split; [exact Q|].
  intros HL. assert (FA : Forall has_active tr).
  { apply F. unfold st_, en.
    assert (LN : forall (l : list Z), l <> [] -> last l 0 = nth (pred (length l)) l 0).
    { clear. induction l as [|x [|y l] IH]; intros H; [congruence|reflexivity|].
      change (last (x :: y :: l) 0) with (last (y :: l) 0). rewrite IH by discriminate. reflexivity. }
    rewrite <- LN by exact Hne. rewrite <- L, <- LN; [exact HL|]. destruct es; [cbn in L; lia|discriminate]. }
  eapply Forall_impl; [|exact FA]. intros ev [H _]. exact H.
Qed.

(* What the box is: each point once, exactly the points between the bounds. *)
Lemma box_spec ss es : length es = length ss ->
  NoDup (box ss es) /\
  forall p, In p (box ss es) <-> length p = length ss /\
    forall i, (i < length ss)%nat -> nth i ss 0 <= nth i p 0 < nth i es 0.
Proof.
  intros L. split.
  - unfold box. apply product_NoDup. apply Forall_forall. intros l Hl. apply in_map_iff in Hl as (q & <- & _).
    apply zrange_NoDup.
  - unfold box. intros p. rewrite product_In. revert es L p.
    induction ss as [|s ss IH]; intros [|e es] L p; try discriminate; cbn [combine map].
    + split; [intros H; inversion H; split; [reflexivity|intros i Hi; cbn in Hi; lia]|].
      intros [H _]. destruct p; [constructor|discriminate].
    + split.
      * intros H. inversion H as [|x ? p' ? H1 H2]; subst. apply zrange_In in H1. cbn in H1.
        apply IH in H2 as [H2 H3]; [|cbn in L; lia]. split; [cbn; now rewrite H2|].
        intros [|i] Hi; [exact H1|]. apply H3. cbn in Hi. lia.
      * intros [H1 H2]. destruct p as [|x p]; [discriminate|]. constructor.
        -- apply zrange_In. apply (H2 0%nat). cbn; lia.
        -- apply IH; [cbn in L; lia|]. split; [cbn in H1; lia|]. intros i Hi. apply (H2 (S i)). cbn; lia.
Qed.

(* foreach over n dimensions, any gang size *)
Theorem C07_foreach_covers_box :
  forall (W : nat) (starts ends : list Z), (0 < W)%nat -> starts <> [] ->
  Forall2 (bounds_in_range W) starts ends ->
  exists tr, foreach_does W false starts ends tr /\
    Permutation (processed tr) (numbers (box starts ends)).
Proof.
  intros W ss es HW Hne HF. destruct (foreach_box W false ss es HW) as (tr & A & B & _); auto.
  { discriminate. } exists tr; auto.
Qed.
Print Assumptions C07_foreach_covers_box.

(* foreach_tiled over n dimensions *)
Theorem C07_foreach_tiled_covers_box :
  forall (W : nat) (starts ends : list Z), power_of_two W -> starts <> [] ->
  Forall2 (bounds_in_range W) starts ends ->
  exists tr, foreach_does W true starts ends tr /\
    Permutation (processed tr) (numbers (box starts ends)).
Proof.
  intros W ss es HW Hne HF. destruct (foreach_box W true ss es) as (tr & A & B & _); auto.
  - destruct HW as (k & E). pose proof (Z.pow_pos_nonneg 2 (Z.of_nat k)). lia.
  - exists tr; auto.
Qed.
Print Assumptions C07_foreach_tiled_covers_box.

Theorem C07_box_points :
  forall (starts ends : list Z), length ends = length starts ->
  NoDup (box starts ends) /\
  forall p, In p (box starts ends) <-> length p = length starts /\
    forall i, (i < length starts)%nat -> nth i starts 0 <= nth i p 0 < nth i ends 0.
Proof. exact box_spec. Qed.
Print Assumptions C07_box_points.

Example C07_example : power_of_two 16 /\ Forall2 (bounds_in_range 16) [0; -5; 2] [7; 3; 100] /\
  box [0; 5] [2; 7] = [[0; 5]; [0; 6]; [1; 5]; [1; 6]].
Proof.
  split; [exists 4%nat; reflexivity|]. split; [|reflexivity].
  repeat constructor; unfold bounds_in_range; cbn; lia.
Qed.

(* The body is not executed for nothing when the innermost range is not reversed... *)
Theorem C07_executions_have_an_active_instance_partial :
  forall (W : nat) (tiled : bool) (starts ends : list Z), (0 < W)%nat -> (tiled = true -> power_of_two W) ->
  starts <> [] -> Forall2 (bounds_in_range W) starts ends ->
  last starts 0 <= last ends 0 ->
  exists tr, foreach_does W tiled starts ends tr /\ Forall (fun ev => In true (ev_mask ev)) tr.
Proof.
  intros W t ss es HW Ht Hne HF HL. destruct (foreach_box W t ss es HW Ht Hne HF) as (tr & A & _ & C).
  exists tr; auto.
Qed.
Print Assumptions C07_executions_have_an_active_instance_partial.

(* ... but with end < start in the innermost dimension and a ragged outer dimension, it is executed
   with every instance off. *)
Theorem C07_execution_without_active_instance_refuted :
  exists W starts ends ev, power_of_two W /\ Forall2 (bounds_in_range W) starts ends /\
    foreach_does W true starts ends [ev] /\ ~ In true (ev_mask ev).
Proof.
  exists 4%nat, [0; 5], [1; 3]. eexists. split; [exists 2%nat; reflexivity|].
  split; [repeat constructor; unfold bounds_in_range; cbn; lia|].
  split; [exists 20%nat; cbv zeta; split; vm_compute; reflexivity|].
  cbn. intuition discriminate.
Qed.
Print Assumptions C07_execution_without_active_instance_refuted.

(** ** C08 *)

(* Exactly when a one-dimensional foreach is defined, and that it is then the exact integer loop. *)
Theorem C08_defined_exactly_without_index_overflow_partial :
  forall (W : nat) (tiled : bool) (a b : Z), (0 < W)%nat -> is_int32 a -> is_int32 b ->
  (foreach_undefined W tiled [a] [b] <-> ~ no_index_overflow W a b) /\
  (no_index_overflow W a b -> exists tr, foreach_does W tiled [a] [b] tr /\
     processed tr = numbers (map (fun i => [i]) (zrange a b))).
Proof.
  intros W tiled a b HW Ha Hb. split.
  - split.
    + intros (m & U) Hno. destruct (foreach1_defined W a b HW Ha Hb Hno) as (m' & tr & P & _).
      eapply exit_not_undefined; [exact P|exact U].
    + intros Hno. destruct (foreach1_undefined W a b HW Ha Hb Hno) as (m & U). exists m. exact U.
  - intros Hno. destruct (C06_foreach_visits_range_in_order W tiled a b HW Ha Hb Hno) as (tr & A & B & _).
    exists tr; auto.
Qed.
Print Assumptions C08_defined_exactly_without_index_overflow_partial.

(* foreach (i = 2147483640 ... 2147483647) on an 8-wide target: the ragged end adds 7 to the counter. *)
Theorem C08_near_int32_max_refuted :
  exists W a b, is_int32 a /\ is_int32 b /\ a < b /\ foreach_undefined W false [a] [b].
Proof.
  exists 8%nat, 2147483641, 2147483647. unfold is_int32. split; [lia|]. split; [lia|]. split; [lia|].
  exists 5%nat. vm_compute. reflexivity.
Qed.
Print Assumptions C08_near_int32_max_refuted.

(* foreach (i = -2147483648 ... 1): the item count does not fit. *)
Theorem C08_wide_range_refuted :
  exists W a b, is_int32 a /\ is_int32 b /\ a < b /\ foreach_undefined W false [a] [b].
Proof.
  exists 4%nat, (-2147483648), 1. unfold is_int32. split; [lia|]. split; [lia|]. split; [lia|].
  exists 3%nat. vm_compute. reflexivity.
Qed.
Print Assumptions C08_wide_range_refuted.

(** ** C09 *)

(* [im]: internal mask, [fm]: function mask; an instance runs when both are on. *)
Theorem C09_foreach_active_serialises :
  forall (W : nat) (im fm : nat -> bool), (W <= 64)%nat ->
  let active := running W (fun l => im l && fm l) in
  active <> [] ->
  exists fuel evs, foreach_active W im fm fuel = Some (evs, im) /\
    map av_index evs = map Z.of_nat active /\
    Forall (fun ev => forall l, (l < W)%nat -> (av_mask ev l = true <-> Z.of_nat l = av_index ev)) evs.
Proof. intros W im fm HW. exact (foreach_active_spec W im fm HW). Qed.
Print Assumptions C09_foreach_active_serialises.

Example C09_example : running 8 (fun l => Nat.odd l && negb (Nat.eqb l 3)) = [1; 5; 7]%nat.
Proof. reflexivity. Qed.

(* Reached with no active instance (see C13), foreach_active is undefined: it does not skip its body. *)
Theorem C09_no_active_instance_refuted :
  forall (W : nat) (im fm : nat -> bool), (W <= 64)%nat -> running W (fun l => im l && fm l) = [] ->
  forall fuel, foreach_active W im fm fuel = None.
Proof. exact foreach_active_all_off. Qed.
Print Assumptions C09_no_active_instance_refuted.

(** ** C10 *)

(* [e]: the varying expression; integer and pointer types *)
Theorem C10_foreach_unique_partitions :
  forall (W : nat) (im fm : nat -> bool) (e : nat -> Z), (W <= 64)%nat ->
  let active := fun l => im l && fm l in
  running W active <> [] ->
  exists fuel evs, foreach_unique Z.eqb W im fm e fuel = UDone evs /\
    (* every active instance takes part in exactly one execution *)
    Permutation (flat_map (fun ev => running W (uv_mask ev)) evs) (running W active) /\
    (* an execution is for a value some active instance has, and for exactly the instances having it *)
    Forall (fun ev => (exists f, In f (running W active) /\ uv_value ev = e f) /\
       forall l, (l < W)%nat -> (uv_mask ev l = true <-> active l = true /\ e l = uv_value ev)) evs /\
    NoDup (map uv_value evs).
Proof.
  intros W im fm e HW active Hne.
  destruct (foreach_unique_spec Z.eqb W im fm e HW) as (fuel & evs & A & B & C & D).
  - intros; apply Z.eqb_refl.
  - intros l l' _ _ H. now rewrite Z.eqb_sym.
  - intros l l' l'' _ _ _ H1 H2. apply Z.eqb_eq in H1, H2. apply Z.eqb_eq. congruence.
  - exact Hne.
  - exists fuel, evs. split; [exact A|]. split; [exact B|]. split.
    + eapply Forall_impl; [|exact C]. intros ev [H1 H2]. split; [exact H1|].
      intros l Hl. rewrite H2 by exact Hl. fold (active l). rewrite andb_true_iff, Z.eqb_eq. intuition congruence.
    + unfold pairwise_distinct in D. induction D as [|a l Ha _ IH]; constructor; auto.
      intros Hin. rewrite Forall_forall in Ha. specialize (Ha a Hin). rewrite Z.eqb_refl in Ha. discriminate.
Qed.
Print Assumptions C10_foreach_unique_partitions.

(* floating point types, when no active instance holds a NaN; +0 and -0 are the same value *)
Theorem C10_foreach_unique_float_partial :
  forall (W : nat) (im fm : nat -> bool) (e : nat -> spec_float), (W <= 64)%nat ->
  let active := fun l => im l && fm l in
  running W active <> [] ->
  (forall l, In l (running W active) -> e l <> S754_nan) ->
  exists fuel evs, foreach_unique SFeqb W im fm e fuel = UDone evs /\
    Permutation (flat_map (fun ev => running W (uv_mask ev)) evs) (running W active) /\
    Forall (fun ev => (exists f, In f (running W active) /\ uv_value ev = e f) /\
       forall l, (l < W)%nat -> uv_mask ev l = active l && SFeqb (uv_value ev) (e l)) evs /\
    pairwise_distinct SFeqb (map uv_value evs).
Proof.
  intros W im fm e HW active Hne Hnan.
  apply (foreach_unique_spec SFeqb W im fm e HW).
  - intros l Hl. apply SFeqb_refl. now apply Hnan.
  - intros l l' _ _. apply SFeqb_sym.
  - intros l l' l'' _ _ _. apply SFeqb_trans.
  - exact Hne.
Qed.
Print Assumptions C10_foreach_unique_float_partial.

(* With a NaN in an active instance the loop never ends. *)
Lemma nan_first_hangs : forall W im fm (e : nat -> spec_float) r f t, (W <= 64)%nat ->
  running W r = f :: t -> e f = S754_nan -> forall fuel,
  foreach_unique_loop SFeqb W im fm e fuel (movmsk W r) = UMore.
Proof.
  intros W im fm e r f t HW E N fuel.
  assert (Hf : (f < W)%nat /\ r f = true) by (apply running_In; rewrite E; now left).
  induction fuel as [|fuel IH]; [reflexivity|]. cbn [foreach_unique_loop].
  rewrite (cttz_running W r f t) by auto. unfold extract.
  destruct (Z.leb_spec 0 (Z.of_nat f)); [|lia].
  destruct (Z.ltb_spec (Z.of_nat f) (Z.of_nat W)); [|lia]. cbn [andb]. rewrite Nat2Z.id, N. cbv zeta.
  rewrite movmsk_andnot.
  assert (X : movmsk W (fun l => r l && negb (im l && SFeqb S754_nan (e l))) = movmsk W r).
  { apply movmsk_ext. intros l _. unfold SFeqb. cbn. rewrite andb_false_r. apply andb_true_r. }
  rewrite X, IH. rewrite movmsk_is_zero, E. reflexivity.
Qed.

Theorem C10_foreach_unique_nan_refuted :
  forall (W : nat) (im fm : nat -> bool) (e : nat -> spec_float) (f : nat) t, (W <= 64)%nat ->
  running W (fun l => im l && fm l) = f :: t -> e f = S754_nan ->
  forall fuel, foreach_unique SFeqb W im fm e fuel = UMore.
Proof. intros. unfold foreach_unique. eapply nan_first_hangs; eauto. Qed.
Print Assumptions C10_foreach_unique_nan_refuted.

Example C10_nan_example : forall fuel,
  foreach_unique SFeqb 4 (fun _ => true) (fun _ => true) (fun _ => S754_nan) fuel = UMore.
Proof. intros fuel. eapply C10_foreach_unique_nan_refuted; [lia|reflexivity|reflexivity]. Qed.

(** ** C45 *)

(* [call p mask s]: the effect and result of calling the function at address p under a mask *)
Theorem C45_varying_call :
  forall (St R : Type) (call : Z -> (nat -> bool) -> St -> St * (nat -> R)) (W : nat)
         (im fm : nat -> bool) (fptr : nat -> Z) (s : St), (W <= 64)%nat ->
  let active := fun l => im l && fm l in
  exists fuel s' res calls, varying_call call W im fm fptr fuel s = Some (s', res, calls) /\
    (* the effect is that of the calls, one after the other; results are collected per instance *)
    s' = fst (exec_calls call calls s (fun _ => None)) /\
    (forall l, (l < W)%nat -> res l = snd (exec_calls call calls s (fun _ => None)) l) /\
    (* each distinct pointer among the active instances is called once, for exactly its instances *)
    NoDup (map fst calls) /\
    Forall (fun c => (exists l, In l (running W active) /\ fptr l = fst c) /\
       forall l, (l < W)%nat -> (snd c l = true <-> active l = true /\ fptr l = fst c)) calls /\
    Permutation (flat_map (fun c => running W (snd c)) calls) (running W active).
Proof.
  intros St R call W im fm fptr s HW active.
  destruct (varying_call_spec call W im fm fptr HW s) as (fuel & s' & res & calls & A & B & C & D & E & F).
  exists fuel, s', res, calls. repeat split; auto.
Qed.
Print Assumptions C45_varying_call.

(* each active instance gets the result of the call of its own function *)
Theorem C45_each_instance_gets_its_result :
  forall (St R : Type) (call : Z -> (nat -> bool) -> St -> St * (nat -> R)) (W : nat)
         (im fm : nat -> bool) (fptr : nat -> Z) (s : St), (W <= 64)%nat ->
  exists fuel s' res calls, varying_call call W im fm fptr fuel s = Some (s', res, calls) /\
    forall l, (l < W)%nat -> im l = true -> fm l = true ->
      exists m s0, m l = true /\ res l = Some (snd (call (fptr l) m s0) l).
Proof.
  intros St R call W im fm fptr s HW.
  destruct (varying_call_spec call W im fm fptr HW s) as (fuel & s' & res & calls & A & B & C & D & E & F).
  exists fuel, s', res, calls. split; [exact A|]. intros l Hl Him Hfm.
  assert (Hin : In l (flat_map (fun c => running W (snd c)) calls)).
  { eapply Permutation_in; [symmetry; exact D|]. apply running_In. rewrite Him, Hfm. auto. }
  apply in_flat_map in Hin as (c & Hc & Hlc). apply running_In in Hlc as [_ Hlc].
  rewrite Forall_forall in E.
  destruct (exec_calls_lane call calls s (fun _ => None) l) as (c' & s0 & G1 & G2 & G3); auto.
  - exists c; auto.
  - intros c1 c2 H1 H2 M1 M2. destruct (E c1 H1) as [_ E1], (E c2 H2) as [_ E2].
    apply (E1 l Hl) in M1. apply (E2 l Hl) in M2. destruct M1 as [_ M1], M2 as [_ M2]. now rewrite <- M1.
  - exists (snd c'), s0. split; [exact G2|]. rewrite C by exact Hl. rewrite G3.
    destruct (E c' G1) as [_ E']. apply (E' l Hl) in G2 as [_ ->]. reflexivity.
Qed.
Print Assumptions C45_each_instance_gets_its_result.

Example C45_example :
  exists fuel s' res calls,
    varying_call (fun p m s => (s ++ [p], fun l => p + Z.of_nat l)) 4 (fun _ => true) (fun l => negb (Nat.eqb l 2))
      (fun l => if Nat.eqb l 1 then 7 else 9) fuel [] = Some (s', res, calls) /\
    s' = [9; 7] /\ map res [0; 1; 3]%nat = [Some 9; Some 8; Some 12].
Proof. exists 3%nat. do 3 eexists. split; [reflexivity|]. split; reflexivity. Qed.
