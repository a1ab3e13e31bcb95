(** Proofs about the task queue (C68): progress, limits, data. *)
From Coq Require Import List Bool Arith Lia Permutation Sorting.Sorted.
Import ListNotations.
From Verif Require Import QueueModel QueueSpec QueueProofs QueueProofs2 QueueProofs3.

(** ** Progress *)
Definition left_of (s : sys) (c : cmd) : nat := (if memn (c_id c) (s_started s) then 0 else 1) + (if memn (c_id c) (s_ran s) then 0 else 1) + (if memn (c_id c) (s_done s) then 0 else 1).
Definition left_all (s : sys) : nat := list_sum (map (left_of s) (s_sub s)).
Lemma sum_less : forall A (f f' : A -> nat) l x, (forall y, In y l -> f' y <= f y) -> In x l -> f' x < f x -> list_sum (map f' l) < list_sum (map f l).
Proof.
  intros A f f' l x. revert x. induction l as [|y l IH]; intros x LE I0 LT; [destruct I0|]. cbn.
  assert (TL : list_sum (map f' l) <= list_sum (map f l)).
  { assert (LE2 : forall z, In z l -> f' z <= f z) by (intros; apply LE; right; auto). clear - LE2. induction l as [|z l IH]; cbn; [lia|]. pose proof (LE2 z (or_introl eq_refl)). assert (list_sum (map f' l) <= list_sum (map f l)) by (apply IH; intros; apply LE2; right; auto). unfold list_sum in *. lia. }
  pose proof (LE y (or_introl eq_refl)) as LY. destruct I0 as [-> |I0].
  - unfold list_sum in *. lia.
  - assert (list_sum (map f' l) < list_sum (map f l)) by (apply (IH x); auto; intros; apply LE; right; auto). unfold list_sum in *. lia.
Qed.
Lemma first_undone : forall (f : cmd -> bool) l, forallb f l = false -> exists p c q, l = p ++ c :: q /\ f c = false /\ forall x, In x p -> f x = true.
Proof.
  intros f. induction l as [|x l IH]; intros H; [discriminate|]. cbn in H. destruct (f x) eqn:F; cbn in H.
  - destruct (IH H) as (p & c & q & -> & C & P). exists (x :: p), c, q. split; auto. split; auto. intros y [<- |Y]; auto.
  - exists [], x, l. repeat split; auto; intros y [].
Qed.
Lemma before_prefix : forall p c q a, In a (before (c_id c) (p ++ c :: q)) -> In a p.
Proof.
  induction p as [|x p IH]; intros c q a H; cbn in H.
  - rewrite Nat.eqb_refl in H. destruct H.
  - destruct (c_id x =? c_id c); [destruct H|]. destruct H as [<- |H]; [left; auto|right; eauto].
Qed.
Lemma find_unique : forall l c, (forall x y, In x l -> In y l -> c_id x = c_id y -> x = y) -> In c l -> find (fun x => c_id x =? c_id c) l = Some c.
Proof.
  intros l c U I0. destruct (find (fun x => c_id x =? c_id c) l) as [x|] eqn:F.
  - apply find_sub in F as (F & E). f_equal. apply U; auto.
  - exfalso. eapply find_none in F; eauto. cbn in F. rewrite Nat.eqb_refl in F. discriminate.
Qed.
Lemma dep_ahead : forall g ls s a b, inv g ls s -> In a (s_cmds s) -> In b (s_cmds s) -> c_id a < c_id b -> dep (c_what a) (c_what b) -> ahead a b.
Proof.
  intros g ls s a b V A B L D. unfold ahead. rewrite (v_list _ _ _ V a A), (v_list _ _ _ V b B). unfold list_of, place.
  destruct D as [(D & k & ->)|(D & D2)]; [destruct (c_what a); try discriminate|destruct (c_what a); try discriminate; destruct (c_what b); try discriminate]; destruct (multi g); cbn; auto.
Qed.
Lemma memn_cons : forall i j l, memn i (j :: l) = (i =? j) || memn i l.
Proof. reflexivity. Qed.
Lemma progress_step : forall g strict ls s, inv g ls s -> s_phase s = Syncing -> forallb (finished s) (s_sub s) = false ->
  exists l s', step g strict s l = Some s' /\ left_all s' < left_all s /\ s_phase s' = Syncing /\ (exists i, l = Start i \/ l = Effect i \/ l = Finish i).
Proof.
  intros g strict ls s V PH F. apply first_undone in F as (p & c & q & EQ & NF & PD). pose proof (v_sub _ _ _ V) as [(X & _)|(_ & SB)]; [congruence|].
  assert (CS : In c (s_sub s)) by (rewrite EQ; apply in_or_app; right; left; auto). destruct (sub_in _ _ _ _ V CS) as (CC & _).
  assert (U : forall x y, In x (s_sub s) -> In y (s_sub s) -> c_id x = c_id y -> x = y).
  { intros x y X Y E. apply (sub_in _ _ _ _ V) in X as (X & _). apply (sub_in _ _ _ _ V) in Y as (Y & _). eapply sorted_unique; eauto. apply (v_sorted _ _ _ V). }
  pose proof (find_unique _ c U CS) as FU. unfold finished in NF. pose proof NF as NF'. apply memn_not in NF'.
  assert (LES : forall i l, (if memn i (c_id c :: l) then 0 else 1) <= (if memn i l then 0 else 1)) by (intros i l; rewrite memn_cons; destruct (i =? c_id c), (memn i l); cbn; lia).
  destruct (memn (c_id c) (s_started s)) eqn:ST; [destruct (memn (c_id c) (s_ran s)) eqn:RA|].
  - exists (Finish (c_id c)). eexists. split; [cbn; rewrite FU, RA, NF; reflexivity|]. split; [|split; [cbn; auto|eauto]].
    unfold left_all. cbn [with_dev s_sub]. apply sum_less with (x := c); auto.
    + intros y _. unfold left_of. cbn [with_dev s_started s_ran s_done]. pose proof (LES (c_id y) (s_done s)). lia.
    + unfold left_of. cbn [with_dev s_started s_ran s_done]. rewrite memn_cons, Nat.eqb_refl, NF. cbn. lia.
  - exists (Effect (c_id c)). eexists. split; [cbn; rewrite FU, ST, RA; reflexivity|]. split; [|split; [cbn; auto|eauto]].
    unfold left_all. cbn [with_dev s_sub]. apply sum_less with (x := c); auto.
    + intros y _. unfold left_of. cbn [with_dev s_started s_ran s_done]. pose proof (LES (c_id y) (s_ran s)). lia.
    + unfold left_of. cbn [with_dev s_started s_ran s_done]. rewrite memn_cons, Nat.eqb_refl, RA. cbn. lia.
  - assert (MS : may_start g strict s c = true).
    { unfold may_start. apply andb_true_iff. split; apply forallb_forall.
      - intros e W. destruct (v_waited _ _ _ V c e CC W) as (a & A & L & SA & D). pose proof (dep_ahead _ _ _ _ _ V A CC L D) as AH.
        assert (AS : In a (s_sub s)). { rewrite SB. apply submitted_in. split; auto. apply counted_true; auto. destruct D as [(D & _)|(D & _)]; destruct (c_what a); try discriminate; auto. }
        assert (AP : In a p).
        { rewrite EQ in AS. apply in_app_or in AS as [AS|[AS|AS]]; auto; [subst; lia|]. exfalso. pose proof (submitted_sorted _ (v_sorted _ _ _ V)) as SS. rewrite <- SB, EQ in SS. clear - SS AS AH.
          induction p as [|x p IH]; cbn in SS; inversion SS as [|? ? S1 FF]; subst; auto. rewrite Forall_forall in FF. apply FF in AS. eapply ahead_asym; eauto. }
        apply PD in AP. unfold finished in AP. apply memn_in in AP. apply meme_in. apply (v_sig _ _ _ V a e A SA). auto.
      - intros a A. rewrite EQ in A. apply before_prefix in A. rewrite (PD a A). destruct (_ || _); auto. }
    exists (Start (c_id c)). eexists. split; [cbn; rewrite FU, ST, MS; reflexivity|]. split; [|split; [cbn; auto|eauto]].
    unfold left_all. cbn [with_dev s_sub]. apply sum_less with (x := c); auto.
    + intros y _. unfold left_of. cbn [with_dev s_started s_ran s_done]. pose proof (LES (c_id y) (s_started s)). lia.
    + unfold left_of. cbn [with_dev s_started s_ran s_done]. rewrite memn_cons, Nat.eqb_refl, ST. cbn. lia.
Qed.
Definition device_label (l : label) : Prop := exists i, l = Start i \/ l = Effect i \/ l = Finish i.
Lemma sync_returns : forall g strict n ls s, left_all s <= n -> inv g ls s -> s_phase s = Syncing -> exists more s', Forall device_label more /\ run g strict s (more ++ [SyncEnd]) = Some s' /\ s_phase s' = Idle.
Proof.
  induction n as [|n IH]; intros ls s LE V PH; destruct (forallb (finished s) (s_sub s)) eqn:F.
  2: { destruct (progress_step g strict ls s V PH F) as (l & s' & _ & L & _). lia. }
  3: { destruct (progress_step g strict ls s V PH F) as (l & s' & ST & L & PH' & DL). destruct (IH (ls ++ [l]) s') as (more & s2 & D & R & P2); [lia|eapply inv_step; eauto|auto|].
       exists (l :: more), s2. split; [constructor; auto|]. cbn. rewrite ST. auto. }
  all: rewrite forallb_forall in F; exists [], (after_sync s); split; [constructor|]; cbn; rewrite PH;
    assert (W : forallb (finished s) (waited g s) = true) by (apply forallb_forall; intros c C; apply F; unfold waited in C; destruct (engine g); auto; destruct (counted D2H (s_cmds s)); [apply filter_In in C as (C & _); auto|]; destruct (negb (length (s_comp s) =? 0)); [apply filter_In in C as (C & _); auto|]; destruct (counted H2D (s_cmds s)); [apply filter_In in C as (C & _); auto|destruct C]);
    rewrite W; assert (B : forallb (fun c => is_barrier (c_what c) || finished s c) (s_sub s) = true) by (apply forallb_forall; intros c C; rewrite (F c C); apply orb_true_r); rewrite B; auto.
Qed.

(** ** Limits *)
Definition count (f : what -> bool) (os : list what) : nat := length (filter f os).
Lemma filter_map_len : forall (f : what -> bool) cs, length (filter (fun c => f (c_what c)) cs) = count f (map c_what cs).
Proof. unfold count. induction cs as [|c cs IH]; cbn; auto. destruct (f (c_what c)); cbn; auto. Qed.
Lemma fail_limit : forall g strict ls s o, run g strict (init g) (ls ++ [Fail o]) = Some s ->
  (is_compute o = true /\ max_launches g <= count is_compute (batch ls)) \/ (is_todev o = true /\ max_copies g <= count is_todev (batch ls)).
Proof.
  intros g strict ls s o E. rewrite run_app in E. destruct (run g strict (init g) ls) as [s1|] eqn:E1; [|discriminate]. cbn [run] in E. destruct (step g strict s1 (Fail o)) as [s2|] eqn:ST; [|discriminate].
  pose proof (run_inv _ _ _ _ E1) as V. pose proof (run_recent _ _ _ _ E1) as (lead & rest & R1 & R2 & R3 & R4 & R5). cbn in ST. destruct (s_phase s1) eqn:PH; try discriminate.
  destruct (call g s1 o) eqn:C; [discriminate|]. clear E ST. rewrite <- R5 by congruence.
  assert (CNT : forall f, (forall x, f x = true -> is_barrier x = false) -> length (filter (fun c => f (c_what c)) (s_cmds s1)) = count f (map c_what rest)).
  { intros f NF. rewrite R1, filter_app, app_length, !filter_map_len. enough (count f (map c_what lead) = 0) by lia. clear - R2 NF. unfold count. induction lead as [|c l IH]; auto. cbn. pose proof (R2 c (or_introl eq_refl)) as B.
    destruct (f (c_what c)) eqn:FC; [apply NF in FC; congruence|]. apply IH. intros; apply R2; right; auto. }
  assert (CM : s_free s1 = [] -> max_launches g <= count is_compute (map c_what rest)).
  { intros EF. pose proof (v_kperm _ _ _ V) as KP. rewrite EF in KP. cbn in KP. pose proof (Permutation_length KP) as LN. rewrite map_length, seq_length in LN. rewrite <- LN, <- CNT by (intros []; auto; discriminate).
    assert (ND : NoDup (map snd (s_comp s1))).
    { assert (N1 : NoDup (s_comp s1)) by (eapply NoDup_map_inv; eapply perm_nodup; exact KP).
      assert (INJ : forall i i' id, In (i, id) (s_comp s1) -> In (i', id) (s_comp s1) -> i = i').
      { intros i i' id A B. apply (v_comp _ _ _ V) in A as (c & C1 & _ & C2 & C3). apply (v_comp _ _ _ V) in B as (c' & C1' & _ & C2' & C3'). assert (c = c') by (eapply sorted_unique; eauto; [apply (v_sorted _ _ _ V)|congruence]). congruence. }
      clear - N1 INJ. induction (s_comp s1) as [|(i & id) l IH]; cbn; [constructor|]. inversion N1; subst. constructor; [|apply IH; auto; intros; eapply INJ; right; eauto].
      intros X. apply in_map_iff in X as ((i' & id') & EX & X). cbn in EX. subst id'. assert (i = i') by (eapply INJ; [left; reflexivity|right; exact X]). subst. auto. }
    rewrite <- (map_length snd), <- (map_length c_id). apply NoDup_incl_length; auto. intros id X. apply in_map_iff in X as ((i & id') & EX & X). cbn in EX. subst id'. apply (v_comp _ _ _ V) in X as (c & C1 & C2 & _ & <-).
    apply in_map. apply filter_In. auto. }
  destruct o; cbn in C; try discriminate.
  - right. split; auto. unfold get_copy in C. destruct (find (fun i => meme (CopyEv i) (s_sig s1)) (s_cpool s1)) as [i|] eqn:F; [discriminate|]. destruct (s_cfree s1) eqn:CF; [|discriminate].
    pose proof (v_cperm _ _ _ V) as CP. rewrite CF, app_nil_r in CP. pose proof (Permutation_length CP) as LN. rewrite seq_length in LN. rewrite <- LN, <- CNT by (intros []; auto; discriminate).
    rewrite <- (map_length (fun i => Some (CopyEv i))), <- (map_length c_signal). apply NoDup_incl_length.
    + apply FinFun.Injective_map_NoDup; [intros x y EX; congruence|]. eapply perm_nodup; eauto.
    + intros e X. apply in_map_iff in X as (i & <- & X). pose proof (find_none _ _ F i X) as N. cbn in N. apply meme_not in N. destruct (v_cfree _ _ _ V i X N) as (c & C1 & C2). rewrite <- C2. apply in_map. apply filter_In. split; auto.
      pose proof (v_kind _ _ _ V c C1) as K. destruct (c_what c); auto; try (destruct K; congruence); congruence.
  - left. split; auto. apply CM. destruct (s_free s1); [auto|discriminate].
  - left. split; auto. apply CM. destruct (s_free s1); [auto|discriminate].
Qed.

(** ** Data *)
Section Data.
Variable V : Type.
Variable K : nat -> kernel V.
Hypothesis KOK : forall k, kernel_ok (K k).
Definition meq (m m' : memory V) : Prop := forall x, m x = m' x.
Lemma loc_eqb_spec : forall a b, reflect (a = b) (loc_eqb a b).
Proof. intros [i|i] [j|j]; cbn; try (constructor; congruence); destruct (Nat.eqb_spec i j); constructor; congruence. Qed.
Lemma loc_dec : forall a b : loc, {a = b} + {a <> b}.
Proof. intros a b. destruct (loc_eqb_spec a b); auto. Qed.
Lemma effect_frame : forall o m x, ~ In x (writes K o) -> effect K o m x = m x.
Proof.
  intros o m x H. destruct o; cbn in *; auto; try (unfold put; match goal with |- (if loc_eqb ?a ?b then _ else _) = _ => destruct (loc_eqb_spec a b); auto; exfalso; auto end). apply KOK. auto.
Qed.
Lemma effect_reads : forall o m m' x, (forall y, In y (reads K o) -> m y = m' y) -> In x (writes K o) -> effect K o m x = effect K o m' x.
Proof.
  intros o m m' x H W. destruct o; cbn in *; try (destruct W as [<- |[]]; unfold put; cbn; rewrite Nat.eqb_refl; apply H; auto); [apply KOK; auto|destruct W].
Qed.
Lemma effect_ext : forall o m m', meq m m' -> meq (effect K o m) (effect K o m').
Proof. intros o m m' H x. destruct (in_dec loc_dec x (writes K o)) as [I0|I0]; [apply effect_reads; auto|]. rewrite !effect_frame by auto. auto. Qed.
Lemma effect_comm : forall a b m, ~ conflict K a b -> meq (effect K a (effect K b m)) (effect K b (effect K a m)).
Proof.
  intros a b m NC x. unfold conflict in NC.
  assert (RA : forall y, In y (reads K a) -> ~ In y (writes K b)) by (intros y Y1 Y2; apply NC; exists y; auto).
  assert (RB : forall y, In y (reads K b) -> ~ In y (writes K a)) by (intros y Y1 Y2; apply NC; exists y; auto).
  destruct (in_dec loc_dec x (writes K a)) as [I1|I1].
  - assert (I2 : ~ In x (writes K b)) by (intros X; apply NC; exists x; auto). rewrite (effect_frame b (effect K a m) x I2). apply effect_reads; auto. intros y Y. apply effect_frame. auto.
  - rewrite (effect_frame a _ x I1). destruct (in_dec loc_dec x (writes K b)) as [I2|I2].
    + apply effect_reads; auto. intros y Y. symmetry. apply effect_frame. auto.
    + rewrite !effect_frame by auto. auto.
Qed.
Definition do_id (cs : list what) (m : memory V) (i : nat) : memory V := match nth_error cs i with Some o => effect K o m | None => m end.
Definition exec (cs : list what) (L : list nat) (m : memory V) : memory V := fold_left (do_id cs) L m.
Lemma exec_ext : forall cs L m m', meq m m' -> meq (exec cs L m) (exec cs L m').
Proof. induction L as [|i L IH]; intros m m' H; cbn; auto. apply IH. unfold do_id. destruct (nth_error cs i); auto. apply effect_ext. auto. Qed.
Lemma exec_move : forall cs n o L m, nth_error cs n = Some o -> (forall i a, In i L -> nth_error cs i = Some a -> ~ conflict K a o) ->
  meq (exec cs (n :: L) m) (effect K o (exec cs L m)).
Proof.
  intros cs n o L. revert n. induction L as [|i L IH]; intros n m E NC; cbn; [unfold do_id; rewrite E; intros x; auto|].
  intros x. assert (X : meq (exec cs (n :: L) (do_id cs m i)) (effect K o (exec cs L (do_id cs m i)))) by (apply IH; auto; intros; eapply NC; eauto; right; auto).
  rewrite <- X. cbn. apply exec_ext. unfold do_id at 1 2 3 4. rewrite E. destruct (nth_error cs i) as [a|] eqn:EA; [|intros y; auto].
  apply effect_comm. eapply NC; eauto. left. auto.
Qed.
Lemma exec_prefix : forall cs cs' L m, (forall i, In i L -> i < length cs) -> exec (cs ++ cs') L m = exec cs L m.
Proof.
  intros cs cs'. induction L as [|i L IH]; intros m H; auto. change (exec (cs ++ cs') L (do_id (cs ++ cs') m i) = exec cs L (do_id cs m i)). rewrite IH by (intros; apply H; right; auto). f_equal. unfold do_id. rewrite nth_error_app1; auto. apply H. left. auto.
Qed.
Lemma exec_app : forall cs L L' m, exec cs (L ++ L') m = exec cs L' (exec cs L m).
Proof. intros. apply fold_left_app. Qed.
Lemma exec_sequential : forall cs L m, NoDup L -> (forall i, In i L -> i < length cs) -> (forall i o, nth_error cs i = Some o -> is_barrier o = false -> In i L) ->
  (forall i j a b, i < j -> nth_error cs i = Some a -> nth_error cs j = Some b -> is_barrier a = false -> is_barrier b = false -> conflict K a b -> forall L1 L2, L = L1 ++ j :: L2 -> In i L1) ->
  meq (exec cs L m) (sequential K cs m).
Proof.
  induction cs as [|o cs IH] using rev_ind; intros L m ND LT ALL ORD.
  - destruct L as [|i L]; [intros x; auto|]. specialize (LT i (or_introl eq_refl)). cbn in LT. lia.
  - rewrite app_length in LT. cbn in LT. set (n := length cs) in *. unfold sequential. rewrite fold_left_app. cbn [fold_left]. fold (sequential K cs m).
    assert (NN : nth_error (cs ++ [o]) n = Some o) by (rewrite nth_error_app2 by lia; unfold n; rewrite Nat.sub_diag; auto).
    assert (NB : forall a, ~ conflict K a Barrier) by (intros a (x & [(_ & [[]|[]])|(_ & [])])).
    destruct (in_dec Nat.eq_dec n L) as [IN|NI].
    + apply in_split in IN as (L1 & L2 & ->). apply NoDup_remove in ND as (ND & NI).
      assert (LT2 : forall i, In i (L1 ++ L2) -> i < n).
      { intros i H. assert (i <> n) by (intros ->; auto). assert (i < n + 1) by (apply LT; apply in_app_or in H; apply in_or_app; destruct H; [auto|right; right; auto]). lia. }
      assert (MV : meq (exec (cs ++ [o]) (L1 ++ n :: L2) m) (effect K o (exec (cs ++ [o]) (L1 ++ L2) m))).
      { intros x. rewrite !exec_app. apply exec_move; auto. intros i a I2 EA CF. assert (IL : i < n) by (apply LT2; apply in_or_app; auto).
        assert (BA : is_barrier a = false) by (destruct a; auto; destruct CF as (y & [([] & _)|([] & _)])). destruct (is_barrier o) eqn:BO; [destruct o; try discriminate; eapply NB; eauto|].
        assert (I1 : In i L1) by (eapply ORD; eauto). eapply nodup_app_not; eauto. }
      intros x. rewrite (MV x). apply effect_ext. intros y. rewrite exec_prefix by auto. apply IH; auto.
      * intros i a EA B. assert (IL : i < n) by (apply nth_error_Some; congruence). assert (X : In i (L1 ++ n :: L2)) by (apply (ALL i a); auto; rewrite nth_error_app1; auto).
        apply in_app_or in X. apply in_or_app. destruct X as [X|[X|X]]; auto. lia.
      * intros i j a b LIJ EA EB BA BB CF M1 M2 EM. assert (JL : j < n) by (apply nth_error_Some; congruence).
        assert (ORD' : forall L3 L4, L1 ++ n :: L2 = L3 ++ j :: L4 -> In i L3) by (apply (ORD i j a b); auto; rewrite nth_error_app1; auto; fold n; lia).
        destruct (prefixes _ _ _ _ _ EM) as [(d & -> & X)|(d & -> & X)].
        -- destruct d as [|z d]; [cbn in X; subst; rewrite app_nil_r in *|].
           ++ assert (Y : In i (M1 ++ [n])) by (apply (ORD' _ M2); rewrite <- app_assoc; auto). apply in_snoc in Y as [Y|Y]; auto. lia.
           ++ injection X as <- X. apply (ORD' M1 (d ++ n :: L2)). rewrite <- app_assoc. auto.
        -- subst L2. assert (Y : In i (L1 ++ n :: d)) by (apply (ORD' _ M2); rewrite <- app_assoc; auto). apply in_app_or in Y. apply in_or_app. destruct Y as [Y|[Y|Y]]; auto. lia.
    + assert (BO : is_barrier o = true) by (destruct (is_barrier o) eqn:B; auto; exfalso; apply NI; eapply ALL; eauto). destruct o; try discriminate. cbn [effect].
      assert (LT2 : forall i, In i L -> i < n) by (intros i H; assert (i <> n) by congruence; apply LT in H; lia). intros x. rewrite exec_prefix by auto. apply IH; auto.
      * intros i a EA B. apply (ALL i a); auto. rewrite nth_error_app1; auto. apply nth_error_Some. congruence.
      * intros i j a b LIJ EA EB. apply (ORD i j a b); auto; rewrite nth_error_app1; auto; apply nth_error_Some; congruence.
Qed.
End Data.
Definition effects (ls : list label) : list nat := flat_map (fun l => match l with Effect i => [i] | _ => [] end) ls.
Lemma effects_in : forall ls i, In i (effects ls) <-> In (Effect i) ls.
Proof.
  intros ls i. unfold effects. rewrite in_flat_map. split.
  - intros (l & L & X). destruct l; cbn in X; try (exfalso; exact X). destruct X as [<- |[]]. auto.
  - intros H. exists (Effect i). split; auto. left. auto.
Qed.
Lemma device_exec : forall V (K : nat -> kernel V) cs ls m,
  fold_left (fun m l => match l with Effect i => match nth_error cs i with Some o => effect K o m | None => m end | _ => m end) ls m = exec V K cs (effects ls) m.
Proof. induction ls as [|l ls IH]; intros m; cbn; auto. rewrite IH. destruct l; auto. Qed.
Lemma effects_nodup : forall g strict ls s, run g strict (init g) ls = Some s -> NoDup (effects ls).
Proof.
  intros g strict ls. induction ls as [|l ls IH] using rev_ind; intros s E; [constructor|]. rewrite run_app in E. destruct (run g strict (init g) ls) as [s1|] eqn:E1; [|discriminate]. cbn [run] in E.
  destruct (step g strict s1 l) as [s2|] eqn:ST; [|discriminate]. unfold effects. rewrite flat_map_app. fold (effects ls). specialize (IH s1 eq_refl). destruct l; cbn; rewrite ?app_nil_r; auto.
  pose proof (run_inv _ _ _ _ E1) as V. destruct (inv_effect _ _ _ _ _ _ V ST) as (_ & N). apply Permutation_NoDup with (l := id :: effects ls); [apply Permutation_cons_append|]. constructor; auto.
  intros X. apply N. apply (v_tran _ _ _ V). apply effects_in. auto.
Qed.
Lemma split_in : forall A (x : A) l, In x l -> exists l1 l2, l = l1 ++ x :: l2.
Proof. intros. apply in_split. auto. Qed.
Lemma effect_order : forall g strict ls s i j, run g strict (init g) ls = Some s -> one_after_other ls i j -> forall L1 L2, effects ls = L1 ++ j :: L2 -> In i L1.
Proof.
  intros g strict ls s i j E O L1 L2 EQ. assert (X : In j (effects ls)) by (rewrite EQ; apply in_or_app; right; left; auto). pose proof (effects_nodup _ _ _ _ E) as ND.
  apply effects_in in X. apply in_split in X as (l1 & l2 & ->). (* l1 ++ Effect j :: l2 *)
  assert (E1 : exists s1, run g strict (init g) l1 = Some s1 /\ step g strict s1 (Effect j) <> None).
  { rewrite run_app in E. destruct (run g strict (init g) l1) as [s1|]; [|discriminate]. exists s1. split; auto. cbn [run] in E. destruct (step g strict s1 (Effect j)); congruence. }
  destruct E1 as (s1 & E1 & ST). pose proof (run_inv _ _ _ _ E1) as V.
  assert (SJ : In (Start j) l1).
  { apply (v_tstart _ _ _ V). cbn in ST. destruct (find _ (s_sub s1)); [|destruct (s_phase s1); congruence]. destruct (memn j (s_started s1)) eqn:M; [apply memn_in; auto|]. cbn in ST. destruct (s_phase s1); congruence. }
  apply in_split in SJ as (k1 & k2 & ->). assert (FI : In (Finish i) k1) by (eapply O; rewrite <- app_assoc; reflexivity).
  assert (EI : In (Effect i) k1).
  { assert (E2 : exists s2, run g strict (init g) k1 = Some s2) by (rewrite run_app in E1; destruct (run g strict (init g) k1); [eauto|discriminate]). destruct E2 as (s2 & E2). pose proof (run_inv _ _ _ _ E2) as V2.
    apply (v_tran _ _ _ V2), (v_done _ _ _ V2), (v_tdone _ _ _ V2). auto. }
  unfold effects in EQ, ND. rewrite flat_map_app in EQ, ND. cbn [flat_map app] in EQ, ND. fold (effects (k1 ++ Start j :: k2)) in EQ, ND. fold (effects l2) in EQ, ND.
  assert (XI : In i (effects (k1 ++ Start j :: k2))) by (apply effects_in; apply in_or_app; auto).
  assert (EQL : effects (k1 ++ Start j :: k2) = L1).
  { revert EQ ND. generalize (effects (k1 ++ Start j :: k2)) (effects l2). clear. intros M1 M2 EQ ND. revert L1 EQ. induction M1 as [|x M1 IH]; intros L1 EQ.
    - destruct L1 as [|y L1]; auto. cbn in EQ. injection EQ as <- EQ. subst M2. cbn in ND. inversion ND; subst. exfalso. apply H1. apply in_or_app. right. left. auto.
    - destruct L1 as [|y L1]; cbn in EQ.
      + injection EQ as -> EQ. subst. cbn in ND. inversion ND; subst. exfalso. apply H1. apply in_or_app. right. left. auto.
      + injection EQ as <- EQ. cbn in ND. inversion ND; subst. f_equal. apply IH; auto. }
  rewrite <- EQL. auto.
Qed.
Lemma ordered_ok : forall g strict ls s i j, run g strict (init g) ls = Some s -> ordered g ls i j -> one_after_other ls i j.
Proof.
  intros g strict ls s i j E O. induction O as [i j P|i m j O1 IH1 O2 IH2]; [eapply order_ok; eauto|]. intros l1 l2 EQ.
  pose proof (IH2 _ _ EQ) as FM. assert (E1 : exists s1, run g strict (init g) l1 = Some s1) by (rewrite EQ, run_app in E; destruct (run g strict (init g) l1); [eauto|discriminate]). destruct E1 as (s1 & E1).
  pose proof (run_inv _ _ _ _ E1) as V. assert (SM : In (Start m) l1) by (apply (v_tstart _ _ _ V), (v_ran _ _ _ V), (v_done _ _ _ V), (v_tdone _ _ _ V); auto).
  apply in_split in SM as (k1 & k2 & ->). apply in_or_app. left. apply (IH1 k1 (k2 ++ Start j :: l2)). rewrite EQ, <- app_assoc. auto.
Qed.
Lemma data_ok : forall V (K : nat -> kernel V) g strict ls s m, (forall k, kernel_ok (K k)) -> run g strict (init g) ls = Some s ->
  (forall i o, is_at ls i o -> is_barrier o = false -> In (Finish i) ls) ->
  (forall i j a b, is_at ls i a -> is_at ls j b -> i < j -> conflict K a b -> ordered g ls i j) ->
  forall x, device_run K ls m x = sequential K (calls ls) m x.
Proof.
  intros V K g strict ls s m KOK E ALL PR x. unfold device_run. rewrite device_exec. pose proof (run_inv _ _ _ _ E) as IV. apply exec_sequential; auto.
  - eapply effects_nodup; eauto.
  - intros i H. apply effects_in in H. apply (v_tran _ _ _ IV), (v_ran _ _ _ IV), (v_started _ _ _ IV) in H. rewrite (v_next _ _ _ IV) in H. auto.
  - intros i o H B. apply effects_in. apply (v_tran _ _ _ IV), (v_done _ _ _ IV), (v_tdone _ _ _ IV). eapply ALL; eauto.
  - intros i j a b L EA EB _ _ CF. eapply effect_order; eauto. eapply ordered_ok; eauto.
Qed.
