(** One-dimensional foreach: order of the iterations and exactly when it is defined. *)
From Coq Require Import ZArith List Bool Lia.
From Verif Require Import Bits LanesModel ForeachModel ForeachSpec ForeachProofs ForeachProofs2.
Import ListNotations.
Local Open Scope Z_scope.

Section One.
Context (W : nat) (s e : Z) (HW : (0 < W)%nat) (Hs : - 2 ^ 31 <= s < 2 ^ 31) (He : - 2 ^ 31 <= e < 2 ^ 31).
Notation w := (Z.of_nat W).
Notation spans := [w].
Notation step := (fstep W spans [s] [e]).

Lemma sp1_ok : spans_ok W spans.
Proof. split; [repeat constructor; lia|]. unfold prod; cbn; lia. Qed.

Lemma delta1 l : (l < W)%nat -> delta spans 0 l = Z.of_nat l.
Proof. intros H. unfold delta. cbn [skipn fold_right nth]. rewrite Z.div_1_r. apply Z.mod_small. lia. Qed.

Lemma varying1 c : - 2 ^ 31 <= c -> c + w <= 2 ^ 31 ->
  varying_counter W spans 0 (Some c) = map (fun l => Some (c + delta spans 0 l)) (lanes W).
Proof.
  intros H1 H2. unfold varying_counter. apply map_ext_in. intros l Hl. apply in_seq in Hl. cbn [add_nsw].
  rewrite delta1 by lia. apply nsw_some. lia.
Qed.

Definition iter_event (c : Z) : event := event_of W spans [s] [e] (fun _ => c).

Lemma iter_points c : active_points (iter_event c) = numbers (map (fun x => [x]) (zrange c (Z.min (c + w) e))).
Proof.
  unfold iter_event. rewrite (event_points W spans [s] [e] sp1_ok eq_refl). apply (f_equal numbers).
  cbn [length seq map product]. unfold sub, sp, en. cbn [nth].
  induction (zrange c (Z.min (c + w) e)) as [|x l IH]; [reflexivity|]. cbn in *. now f_equal.
Qed.

Lemma run_body1 next x c m :
  dimvar x 0%nat = map (fun l => Some (c + delta spans 0 l)) (lanes W) ->
  imask x = map (fun l => Some (m l)) (lanes W) ->
  (forall l, m l = (c + delta spans 0 l <? e)) ->
  run_body W [s] next x =
  FState next (counter x) (dimvar x) (extras x) (in_extras x) (imask x) (step_index x)
         (trace x ++ [iter_event c]).
Proof.
  intros D M Hm. unfold run_body. rewrite M, all_defined_map. do 3 f_equal.
  unfold iter_event, event_of. f_equal.
  - apply map_ext. intros l. rewrite Hm. cbn. unfold en; cbn. now rewrite andb_true_r.
  - apply map_ext_in. intros l Hl. apply in_seq in Hl. cbn [length nDims seq map]. unfold nDims; cbn. f_equal.
    rewrite D. unfold lanes. rewrite (nth_indep _ None (Some (c + delta spans 0 0%nat))).
    2:{ rewrite map_length, seq_length. lia. }
    rewrite (map_nth (fun l => Some (c + delta spans 0 l)) (seq 0 W) 0%nat l).
    rewrite seq_nth by lia. reflexivity.
Qed.

Definition defined1 : Prop :=
  - 2 ^ 31 <= e - s < 2 ^ 31 /\ (s < e -> s + ((e - s + w - 1) / w) * w <= 2 ^ 31).

Lemma iter_active c : c < e -> has_active (iter_event c).
Proof.
  intros H. apply (event_has_active W spans [s] [e] sp1_ok). intros j Hj. cbn in Hj.
  replace j with 0%nat by lia. exact H.
Qed.

Section InRange.
Context (Hr : - 2 ^ 31 <= e - s < 2 ^ 31).

Definition ae1 : Z := e - Z.rem (e - s) w.

Lemma aligned1 : alignedEnd spans [s] [e] 0 = Some ae1.
Proof.
  unfold alignedEnd, nExtras, nItems, sub_nsw, srem, end_, start, span. cbn [nth].
  rewrite (nsw_some (e - s)) by lia. unfold ae1. apply nsw_some.
  destruct (rem_facts (e - s) w ltac:(lia)) as [R1 R2].
  destruct (Z.le_gt_cases s e).
  - rewrite R1 by lia. pose proof (Z.mod_pos_bound (e - s) w ltac:(lia)).
    pose proof (Z.mod_le (e - s) w ltac:(lia) ltac:(lia)). lia.
  - rewrite R2 by lia. pose proof (Z.mod_pos_bound (- (e - s)) w ltac:(lia)).
    pose proof (Z.mod_le (- (e - s)) w ltac:(lia) ltac:(lia)). lia.
Qed.

Lemma ae1_eq : s <= e -> ae1 = s + ((e - s) / w) * w /\ 0 <= (e - s) / w.
Proof.
  intros H. unfold ae1. destruct (rem_facts (e - s) w ltac:(lia)) as [R1 _]. rewrite R1 by lia.
  pose proof (Z.div_mod (e - s) w ltac:(lia)). split; [lia|]. apply Z.div_pos; lia.
Qed.

Lemma ae1_le : e <= s -> ae1 <= s.
Proof.
  intros H. unfold ae1. destruct (rem_facts (e - s) w ltac:(lia)) as [_ R2]. rewrite R2 by lia.
  pose proof (Z.mod_le (- (e - s)) w ltac:(lia) ltac:(lia)). lia.
Qed.

(* the full vectors *)
Lemma full_chunks q : forall c x,
  pc x = OuterNotInExtras -> counter x 0%nat = Some c -> - 2 ^ 31 <= c ->
  c + Z.of_nat q * w = ae1 -> ae1 <= e ->
  exists m, let y := Nat.iter m step x in
    pc y = OuterNotInExtras /\ counter y 0%nat = Some ae1 /\
    exists tr, trace y = trace x ++ tr /\ processed tr = numbers (map (fun x => [x]) (zrange c ae1)) /\
               Forall has_active tr.
Proof.
  induction q as [|q IH]; intros c x Hpc Hc Hlo Hq Hae.
  - exists O. cbn. split; [exact Hpc|]. split; [rewrite Hc; f_equal; lia|].
    exists []. rewrite app_nil_r, zrange_nil by lia. auto.
  - assert (Hcw : c + w <= ae1) by nia.
    assert (E1 : step x = set_pc FullBody x).
    { unfold fstep. rewrite Hpc. change (last_dim [s]) with 0%nat. rewrite Hc, aligned1. cbn.
      destruct (Z.ltb_spec c ae1); [reflexivity|lia]. }
    set (x1 := set_dimvar 0 (varying_counter W spans 0 (Some c)) (set_imask (all_on W) (set_pc FullBody x))).
    assert (Hb1 : run_body W [s] OuterNotInExtras x1 =
      FState OuterNotInExtras (counter x1) (dimvar x1) (extras x1) (in_extras x1) (imask x1) (step_index x1)
         (trace x1 ++ [iter_event c])).
    { apply (run_body1 _ _ c (fun l => c + delta spans 0 l <? e)); auto.
      - unfold x1. cbn. apply varying1; lia.
      - unfold x1. cbn. rewrite map_some_true. apply map_ext_in. intros l Hl. apply in_seq in Hl.
        rewrite delta1 by lia. f_equal. symmetry. apply Z.ltb_lt. lia. }
    set (x2 := step (step x)).
    assert (E2 : x2 = set_counter 0 (Some (c + w)) (FState OuterNotInExtras (counter x1) (dimvar x1) (extras x1)
                 (in_extras x1) (imask x1) (step_index x1) (trace x1 ++ [iter_event c]))).
    { unfold x2. rewrite E1.
      assert (E2' : step (set_pc FullBody x) =
        let s := run_body W [s] OuterNotInExtras
                   (set_dimvar 0 (varying_counter W spans 0 (counter x 0%nat)) (set_imask (all_on W) (set_pc FullBody x))) in
        set_counter 0 (add_nsw (counter s 0%nat) (span spans 0)) s) by reflexivity.
      rewrite E2', Hc. fold x1. rewrite Hb1. cbv zeta. f_equal.
      unfold x1. cbn [counter set_dimvar set_imask set_pc]. rewrite Hc. cbn. apply nsw_some. lia. }
    destruct (IH (c + w) x2) as (m & P & C & tr & T1 & T2 & T3).
    { now rewrite E2. } { now rewrite E2. } { lia. } { lia. } { exact Hae. }
    exists (m + 2)%nat. cbv zeta.
    assert (IT : Nat.iter (m + 2) step x = Nat.iter m step x2).
    { clear. unfold x2, Nat.iter. induction m as [|m IH]; [reflexivity|]. cbn [plus nat_rect]. now rewrite IH. }
    rewrite IT. split; [exact P|]. split; [exact C|].
    exists (iter_event c :: tr). rewrite T1, E2. cbn [trace set_counter].
    split; [unfold x1; cbn [trace set_dimvar set_imask set_pc]; now rewrite <- app_assoc|].
    split; [|constructor; [apply iter_active; lia|exact T3]].
    rewrite processed_cons, T2, iter_points, <- numbers_app, <- map_app. rewrite Z.min_l by lia.
    rewrite <- zrange_app by lia. reflexivity.
Qed.

Lemma start1 : exists m, let y := Nat.iter m step (init W [s]) in
    pc y = OuterNotInExtras /\
    exists c tr, counter y 0%nat = Some c /\ trace y = tr /\
      processed tr = numbers (map (fun x => [x]) (zrange s c)) /\ Forall has_active tr /\
      ((e <= s /\ c = s) \/ (s < e /\ c = ae1)).
Proof.
  destruct (Z.le_gt_cases e s) as [H|H].
  - exists 1%nat. cbn. split; [reflexivity|]. exists s, []. rewrite zrange_nil by lia.
    repeat split; auto.
  - destruct (ae1_eq ltac:(lia)) as [A1 A2].
    destruct (full_chunks (Z.to_nat ((e - s) / w)) s (step (init W [s]))) as (m & P & C & tr & T1 & T2 & T3).
    { reflexivity. } { reflexivity. } { lia. } { rewrite Z2Nat.id by lia. lia. }
    { pose proof (Z.mod_pos_bound (e - s) w ltac:(lia)). pose proof (Z.div_mod (e - s) w ltac:(lia)). lia. }
    exists (m + 1)%nat. cbv zeta.
    assert (IT : Nat.iter (m + 1) step (init W [s]) = Nat.iter m step (step (init W [s]))).
    { clear. unfold Nat.iter. induction m as [|m IH]; [reflexivity|]. cbn [plus nat_rect]. now rewrite IH. }
    rewrite IT. split; [exact P|]. exists ae1, tr. repeat split; auto.
Qed.

Lemma after_full x c : pc x = OuterNotInExtras -> counter x 0%nat = Some c ->
  ((e <= s /\ c = s) \/ (s < e /\ c = ae1)) ->
  step x = set_pc PartialInnerAllOuter x.
Proof.
  intros Hpc Hc H. unfold fstep. rewrite Hpc. change (last_dim [s]) with 0%nat. rewrite Hc, aligned1. cbn.
  destruct (Z.ltb_spec c ae1); [|reflexivity]. exfalso. pose proof ae1_le. lia.
Qed.

Lemma partial1 x c : counter x 0%nat = Some c ->
  step (set_pc PartialInnerAllOuter x) = set_pc (if c <? e then SetInnerMask else Reset 0) x.
Proof.
  intros Hc. unfold fstep. cbn [pc set_pc]. change (last_dim [s]) with 0%nat. cbn [counter set_pc]. rewrite Hc. cbn.
  destruct (c <? e); reflexivity.
Qed.

(* the ragged end runs iff the last vector's index arithmetic stays in range *)
Lemma ragged_ok x c : counter x 0%nat = Some c -> - 2 ^ 31 <= c < e -> c + w <= 2 ^ 31 ->
  exists y, Nat.iter 3 step (set_pc SetInnerMask x) = y /\ pc y = Exit /\ trace y = trace x ++ [iter_event c].
Proof.
  intros Hc H1 H2. eexists. split; [reflexivity|].
  set (v := varying_counter W spans 0 (Some c)).
  set (x1 := set_pc MaskedBody (set_step_index false (set_imask (emask [e] 0 v) (set_dimvar 0 v (set_pc SetInnerMask x))))).
  assert (E1 : step (set_pc SetInnerMask x) = x1).
  { unfold fstep. cbn [pc set_pc]. change (last_dim [s]) with 0%nat. cbn [counter set_pc]. rewrite Hc. reflexivity. }
  assert (Hb1 : run_body W [s] (Reset 0) x1 =
      FState (Reset 0) (counter x1) (dimvar x1) (extras x1) (in_extras x1) (imask x1) (step_index x1)
         (trace x1 ++ [iter_event c])).
  { apply (run_body1 _ _ c (fun l => c + delta spans 0 l <? e)); auto.
    - unfold x1. cbn. apply varying1; lia.
    - unfold x1. cbn [imask set_pc set_step_index set_imask]. unfold v. rewrite varying1 by lia.
      rewrite emask_map. reflexivity. }
  cbn [Nat.iter nat_rect]. rewrite E1.
  replace (step x1) with (run_body W [s] (Reset 0) x1) by reflexivity. rewrite Hb1.
  split; reflexivity.
Qed.

Lemma all_defined_none {A} (xs : list (option A)) : In None xs -> all_defined xs = None.
Proof.
  induction xs as [|x xs IH]; [intros []|]. intros [->|H]; [reflexivity|]. cbn. rewrite IH by exact H.
  now destruct x.
Qed.

Lemma ragged_undefined x c : counter x 0%nat = Some c -> 2 ^ 31 < c + w -> c < 2 ^ 31 ->
  pc (Nat.iter 2 step (set_pc SetInnerMask x)) = Undefined.
Proof.
  intros Hc H1 H2.
  set (v := varying_counter W spans 0 (Some c)).
  set (x1 := set_pc MaskedBody (set_step_index false (set_imask (emask [e] 0 v) (set_dimvar 0 v (set_pc SetInnerMask x))))).
  assert (E1 : step (set_pc SetInnerMask x) = x1).
  { unfold fstep. cbn [pc set_pc]. change (last_dim [s]) with 0%nat. cbn [counter set_pc]. rewrite Hc. reflexivity. }
  cbn [Nat.iter nat_rect]. rewrite E1.
  replace (step x1) with (run_body W [s] (Reset 0) x1) by reflexivity.
  unfold run_body. replace (all_defined (imask x1)) with (@None (list bool)); [reflexivity|].
  symmetry. apply all_defined_none. unfold x1. cbn [imask set_pc set_step_index set_imask].
  unfold emask. apply in_map_iff. exists None. split; [reflexivity|].
  unfold v, varying_counter. apply in_map_iff. exists (pred W). split.
  - cbn [add_nsw]. rewrite delta1 by lia. unfold nsw, in32.
    destruct (Z.ltb_spec (c + Z.of_nat (pred W)) (2 ^ 31)); [lia|]. now rewrite andb_false_r.
  - unfold lanes. apply in_seq. lia.
Qed.

Lemma roundup : s < e ->
  s + ((e - s + w - 1) / w) * w = if ae1 <? e then ae1 + w else e.
Proof.
  intros H. destruct (ae1_eq ltac:(lia)) as [A1 A2].
  pose proof (Z.div_mod (e - s) w ltac:(lia)) as D. pose proof (Z.mod_pos_bound (e - s) w ltac:(lia)) as M.
  set (d := (e - s) / w) in *. set (r := (e - s) mod w) in *.
  destruct (Z.ltb_spec ae1 e).
  - replace ((e - s + w - 1) / w) with (d + 1); [lia|].
    apply (Z.div_unique _ _ _ (r - 1)); [left; lia|]. lia.
  - replace ((e - s + w - 1) / w) with d; [lia|].
    apply (Z.div_unique _ _ _ (r + w - 1)); [left; lia|]. lia.
Qed.

End InRange.

Lemma iter_plus (f : fstate -> fstate) a b x : Nat.iter (a + b) f x = Nat.iter a f (Nat.iter b f x).
Proof. unfold Nat.iter. induction a as [|a IH]; [reflexivity|]. cbn [plus nat_rect]. now rewrite IH. Qed.

Lemma foreach1_defined : defined1 ->
  exists m tr, let y := Nat.iter m step (init W [s]) in pc y = Exit /\ trace y = tr /\
    processed tr = numbers (map (fun x => [x]) (zrange s e)) /\ Forall has_active tr.
Proof.
  intros [Hr Hup]. destruct (start1 Hr) as (m & P & c & tr & C & T1 & T2 & T3 & H). cbv zeta in *.
  set (x := Nat.iter m step (init W [s])) in *.
  pose proof (after_full Hr x c P C H) as E1. pose proof (partial1 x c C) as E2.
  destruct (Z.ltb_spec c e) as [L|L].
  - destruct H as [[H1 H2]|[H1 H2]]; [lia|].
    assert (R : c + w <= 2 ^ 31).
    { specialize (Hup H1). rewrite roundup in Hup by (auto; lia). rewrite H2 in *.
      destruct (Z.ltb_spec ae1 e); lia. }
    assert (Hcs : s <= c) by (destruct (ae1_eq ltac:(lia)); nia).
    destruct (ragged_ok x c C ltac:(lia) R) as (y & Y1 & Y2 & Y3).
    exists (3 + (2 + m))%nat, (tr ++ [iter_event c]). rewrite !iter_plus.
    change (Nat.iter 2 step (Nat.iter m step (init W [s]))) with (step (step x)). rewrite E1, E2, Y1.
    split; [exact Y2|]. split; [rewrite Y3; now f_equal|]. split.
    + unfold processed in *. rewrite flat_map_app, T2. cbn [flat_map]. rewrite app_nil_r, iter_points.
      rewrite <- numbers_app, <- map_app. rewrite Z.min_r.
      2:{ rewrite H2. unfold ae1. destruct (rem_facts (e - s) w ltac:(lia)) as [R1 _]. rewrite R1 by lia.
          pose proof (Z.mod_pos_bound (e - s) w ltac:(lia)). lia. }
      rewrite <- zrange_app by lia. reflexivity.
    + apply Forall_app. split; [exact T3|]. constructor; [apply iter_active; lia|constructor].
  - exists (1 + (2 + m))%nat, tr. rewrite !iter_plus.
    change (Nat.iter 2 step (Nat.iter m step (init W [s]))) with (step (step x)). rewrite E1, E2.
    split; [reflexivity|]. split; [exact T1|]. split; [|exact T3].
    rewrite T2. do 2 f_equal. destruct H as [[H1 ->]|[H1 ->]]; [rewrite !zrange_nil by lia; reflexivity|].
    f_equal. destruct (rem_facts (e - s) w ltac:(lia)) as [R1 _]. unfold ae1 in *. rewrite R1 in * by lia.
    pose proof (Z.mod_pos_bound (e - s) w ltac:(lia)). lia.
Qed.

Lemma foreach1_undefined : ~ defined1 -> exists m, pc (Nat.iter m step (init W [s])) = Undefined.
Proof.
  intros N. destruct (in32 (e - s)) eqn:I.
  - assert (Hr : - 2 ^ 31 <= e - s < 2 ^ 31).
    { unfold in32 in I. apply andb_true_iff in I as [I1 I2]. apply Z.leb_le in I1. apply Z.ltb_lt in I2. lia. }
    assert (Hup : s < e /\ 2 ^ 31 < s + ((e - s + w - 1) / w) * w).
    { unfold defined1 in N. destruct (Z.le_gt_cases e s).
      - exfalso. apply N. split; [exact Hr|lia].
      - split; [lia|]. apply Z.lt_nge. intros X. apply N. split; [exact Hr|auto]. }
    destruct Hup as [Hse Hup]. rewrite roundup in Hup by auto.
    destruct (start1 Hr) as (m & P & c & tr & C & T1 & T2 & T3 & H). cbv zeta in *.
    set (x := Nat.iter m step (init W [s])) in *.
    pose proof (after_full Hr x c P C H) as E1. pose proof (partial1 x c C) as E2.
    destruct H as [[H1 H2]|[H1 H2]]; [lia|]. subst c.
    destruct (Z.ltb_spec ae1 e) as [L|L]; [|lia].
    exists (2 + (2 + m))%nat. rewrite !iter_plus.
    change (Nat.iter 2 step (Nat.iter m step (init W [s]))) with (step (step x)). rewrite E1, E2.
    apply (ragged_undefined x ae1); auto. lia.
  - exists 2%nat. cbn [Nat.iter nat_rect].
    assert (E : alignedEnd spans [s] [e] 0 = None).
    { unfold alignedEnd, nExtras, nItems, sub_nsw, srem, end_, start, span, nsw. cbn [nth]. now rewrite I. }
    change (step (init W [s])) with (set_pc OuterNotInExtras (init W [s])).
    unfold fstep. cbn [pc set_pc]. change (last_dim [s]) with 0%nat. rewrite E. reflexivity.
Qed.

End One.

Lemma absorb W sp s e m x : pc x = Exit \/ pc x = Undefined -> pc (Nat.iter m (fstep W sp s e) x) = pc x.
Proof.
  intros H. assert (Nat.iter m (fstep W sp s e) x = x) as ->; [|reflexivity].
  unfold Nat.iter. induction m as [|m IH]; [reflexivity|]. cbn [nat_rect]. rewrite IH. unfold fstep.
  destruct H as [-> | ->]; reflexivity.
Qed.

Lemma exit_not_undefined W sp s e x a b :
  pc (Nat.iter a (fstep W sp s e) x) = Exit -> pc (Nat.iter b (fstep W sp s e) x) = Undefined -> False.
Proof.
  intros HA HB. destruct (Nat.le_ge_cases a b) as [L|L].
  - replace b with ((b - a) + a)%nat in HB by lia. rewrite iter_plus in HB. rewrite absorb in HB by auto. congruence.
  - replace a with ((a - b) + b)%nat in HA by lia. rewrite iter_plus in HA. rewrite absorb in HA by auto. congruence.
Qed.
