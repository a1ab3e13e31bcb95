(** Proofs about the task queue (C68): order, sync, progress. *)
From Coq Require Import List Bool Arith Lia Permutation Sorting.Sorted.
Import ListNotations.
From Verif Require Import QueueModel QueueSpec QueueProofs QueueProofs2.

(** ** The commands since the last sync *)
Definition recent (ls : list label) (s : sys) : Prop :=
  exists lead rest, s_cmds s = lead ++ rest /\ (forall c, In c lead -> is_barrier (c_what c) = true) /\ length rest <= s_next s /\
    map c_id rest = seq (s_next s - length rest) (length rest) /\ (s_phase s <> Misused -> map c_what rest = batch ls).
Lemma batch_snoc : forall ls l cur, batch_from cur (ls ++ [l]) = match l with SyncEnd => [] | Do o => batch_from cur ls ++ [o] | _ => batch_from cur ls end.
Proof. induction ls as [|x ls IH]; intros l cur; [destruct l; auto|]. destruct x; cbn [app batch_from]; apply IH. Qed.
Lemma call_shape : forall g s o s', call g s o = Some s' -> exists c, s_cmds s' = s_cmds s ++ [c] /\ c_id c = s_next s /\ c_what c = o /\ s_next s' = S (s_next s) /\ s_phase s' = s_phase s.
Proof.
  intros g s o s' H. destruct o; cbn in H.
  - destruct (get_copy s) as [(((i & cf) & cp) & sg)|]; [|discriminate]. injection H as <-. eexists. cbn. eauto 6.
  - injection H as <-. eexists. cbn. eauto 6.
  - destruct (s_free s); [discriminate|]. injection H as <-. eexists. cbn. eauto 6.
  - destruct (s_free s); [discriminate|]. injection H as <-. eexists. cbn. eauto 6.
  - injection H as <-. eexists. cbn. eauto 6.
Qed.
Lemma recent_same : forall ls l s s', recent ls s -> s_cmds s' = s_cmds s -> s_next s' = s_next s -> (s_phase s' <> Misused -> s_phase s <> Misused /\ batch (ls ++ [l]) = batch ls) -> recent (ls ++ [l]) s'.
Proof.
  intros ls l s s' (lead & rest & A & B & C & D & E) H1 H2 H3. exists lead, rest. rewrite H1, H2. split; auto. split; auto. split; auto. split; auto. intros P. destruct (H3 P) as (P1 & ->). auto.
Qed.
Lemma dev_step : forall g strict s l s', step g strict s l = Some s' -> match l with Start _ | Effect _ | Finish _ => s_cmds s' = s_cmds s /\ s_next s' = s_next s /\ s_phase s' = s_phase s /\ s_sub s' = s_sub s | _ => True end.
Proof.
  intros g strict s l s' E. destruct l; auto; cbn in E; (destruct (find _ (s_sub s)) as [c|]; [|destruct (s_phase s); discriminate]);
    match type of E with context [if ?b then _ else _] => destruct b end; destruct (s_phase s) eqn:PH; try discriminate; injection E as <-; cbn; auto.
Qed.
Lemma recent_step : forall g strict ls s l s', inv g ls s -> recent ls s -> step g strict s l = Some s' -> recent (ls ++ [l]) s'.
Proof.
  intros g strict ls s l s' V R E. pose proof (dev_step _ _ _ _ _ E) as DS. destruct l.
  - cbn in E. destruct (s_phase s) eqn:PH; try discriminate. apply call_shape in E as (c & E1 & E2 & E3 & E4 & E5). destruct R as (lead & rest & A & B & C & D & F).
    exists lead, (rest ++ [c]). rewrite E1, E4, A, <- app_assoc. split; auto. split; auto. rewrite !app_length. cbn [length]. split; [lia|]. split.
    + rewrite map_app, D. cbn [map]. rewrite Nat.add_1_r, seq_S. replace (S (s_next s) - S (length rest)) with (s_next s - length rest) by lia. replace (s_next s - length rest + length rest) with (s_next s) by lia. rewrite E2. auto.
    + intros _. unfold batch. rewrite batch_snoc, map_app. cbn. rewrite E3. f_equal. apply F. congruence.
  - cbn in E. assert (s' = s) by (destruct (s_phase s); try discriminate; destruct (call g s o); congruence). subst s'. eapply recent_same; eauto. intros P. split; auto. unfold batch. rewrite batch_snoc. auto.
  - cbn in E. destruct (s_phase s) eqn:PH; try discriminate. injection E as <-. eapply recent_same; eauto. intros P. split; [congruence|]. unfold batch. rewrite batch_snoc. auto.
  - destruct (inv_syncend _ _ _ _ _ V E) as (V' & X). cbn in E. destruct (s_phase s) eqn:PH; try discriminate. destruct (forallb (finished s) (waited g s)); [|discriminate].
    destruct (forallb (fun c => is_barrier (c_what c) || finished s c) (s_sub s)); injection E as <-.
    + destruct X as [(_ & _ & X)|X]; [|discriminate]. exists (s_cmds (after_sync s)), []. rewrite app_nil_r. split; auto. split; auto. split; [cbn; lia|]. split; auto. intros _. unfold batch. rewrite batch_snoc. auto.
    + eapply recent_same; eauto. cbn. congruence.
  - destruct DS as (D1 & D2 & D3 & _). eapply recent_same; eauto. intros P. split; [congruence|]. unfold batch. rewrite batch_snoc. auto.
  - destruct DS as (D1 & D2 & D3 & _). eapply recent_same; eauto. intros P. split; [congruence|]. unfold batch. rewrite batch_snoc. auto.
  - destruct DS as (D1 & D2 & D3 & _). eapply recent_same; eauto. intros P. split; [congruence|]. unfold batch. rewrite batch_snoc. auto.
Qed.
Lemma run_recent : forall g strict ls s, run g strict (init g) ls = Some s -> recent ls s.
Proof.
  intros g strict ls. induction ls as [|l ls IH] using rev_ind; intros s E.
  - injection E as <-. exists [], []. cbn. repeat split; auto; intros c [].
  - rewrite run_app in E. destruct (run g strict (init g) ls) as [s1|] eqn:E1; [|discriminate]. cbn in E. destruct (step g strict s1 l) as [s2|] eqn:ST; [|discriminate]. injection E as <-.
    eapply recent_step; eauto. eapply run_inv; eauto.
Qed.
Lemma later_cmds : forall ls s c m, recent ls s -> In c (s_cmds s) -> is_barrier (c_what c) = false -> c_id c < m < s_next s -> exists c', In c' (s_cmds s) /\ c_id c' = m.
Proof.
  intros ls s c m (lead & rest & A & B & C & D & _) I0 NB L. rewrite A in I0. apply in_app_or in I0 as [I0|I0]; [apply B in I0; congruence|].
  assert (X : In (c_id c) (map c_id rest)) by (apply in_map; auto). rewrite D in X. apply in_seq in X. assert (Y : In m (map c_id rest)) by (rewrite D; apply in_seq; lia).
  apply in_map_iff in Y as (c' & E & Y). exists c'. split; auto. rewrite A. apply in_or_app. auto.
Qed.

(** ** Order *)
Lemma nth_calls : forall l1 l2 i o, nth_error (calls l1) i = Some o -> nth_error (calls (l1 ++ l2)) i = Some o.
Proof. intros l1 l2 i o H. rewrite calls_app. rewrite nth_error_app1; auto. apply nth_error_Some. congruence. Qed.
Lemma step_misused : forall g strict s l s', step g strict s l = Some s' -> s_phase s = Misused -> s_phase s' = Misused /\ calls [l] = [].
Proof.
  intros g strict s l s' E P. pose proof (dev_step _ _ _ _ _ E) as D. destruct l; cbn in E; try (rewrite P in E; discriminate); destruct D as (_ & _ & D & _); rewrite D; auto.
Qed.
Lemma run_misused : forall g strict ls s s', run g strict s ls = Some s' -> s_phase s = Misused -> calls ls = [].
Proof.
  induction ls as [|l ls IH]; intros s s' E P; cbn in E; auto. destruct (step g strict s l) as [s1|] eqn:ST; [|discriminate]. destruct (step_misused _ _ _ _ _ ST P) as (P1 & C).
  change (l :: ls) with ([l] ++ ls). rewrite calls_app, C. cbn. eapply IH; eauto.
Qed.
Lemma prefixes : forall A (l1 k1 l2 k2 : list A), l1 ++ l2 = k1 ++ k2 -> (exists d, l1 = k1 ++ d /\ k2 = d ++ l2) \/ (exists d, k1 = l1 ++ d /\ l2 = d ++ k2).
Proof.
  induction l1 as [|x l1 IH]; intros k1 l2 k2 H; cbn in H; [right; exists k1; auto|]. destruct k1 as [|y k1]; cbn in H; [left; exists (x :: l1); auto|]. injection H as -> H. apply IH in H as [(d & -> & ->)|(d & -> & ->)]; [left; exists d; auto|right; exists d; auto].
Qed.
Lemma start_facts : forall g strict l1 l2 j s, run g strict (init g) (l1 ++ Start j :: l2) = Some s ->
  exists s1 c, run g strict (init g) l1 = Some s1 /\ inv g l1 s1 /\ recent l1 s1 /\ In c (s_cmds s1) /\ In c (s_sub s1) /\ c_id c = j /\ may_start g strict s1 c = true /\ s_sub s1 = submitted (s_cmds s1).
Proof.
  intros g strict l1 l2 j s E. rewrite run_app in E. destruct (run g strict (init g) l1) as [s1|] eqn:E1; [|discriminate]. pose proof (run_inv _ _ _ _ E1) as V. pose proof (run_recent _ _ _ _ E1) as R.
  cbn [run] in E. destruct (step g strict s1 (Start j)) as [s2|] eqn:ST; [|discriminate]. cbn in ST. destruct (find _ (s_sub s1)) as [c|] eqn:F; [|destruct (s_phase s1); discriminate].
  apply find_sub in F as (F & EJ). destruct (sub_in _ _ _ _ V F) as (FC & PH). exists s1, c. split; auto. split; auto. split; auto. split; auto. split; auto. split; auto.
  split; [|destruct (v_sub _ _ _ V) as [(X & _)|(_ & X)]; [congruence|auto]].
  destruct (negb (memn j (s_started s1)) && may_start g strict s1 c) eqn:C; [|destruct (s_phase s1); discriminate]. apply andb_true_iff in C as (_ & C). auto.
Qed.
Lemma order_ok : forall g strict ls s i j, run g strict (init g) ls = Some s -> promised g ls i j -> one_after_other ls i j.
Proof.
  intros g strict ls s i j E (a & b & IA & IB & LT & NA & NB & PR) l1 l2 EQ. subst ls. destruct (start_facts _ _ _ _ _ _ E) as (s1 & c & E1 & V & R & FC & FS & EJ & MS & SB).
  pose proof (v_at _ _ _ V c FC) as AT. rewrite EJ in AT. unfold is_at in *. pose proof (nth_calls l1 (Start j :: l2) _ _ AT) as AT2. assert (c_what c = b) by congruence. clear AT2.
  assert (JL : j < length (calls l1)) by (apply nth_error_Some; congruence). assert (IA1 : nth_error (calls l1) i = Some a) by (rewrite calls_app, nth_error_app1 in IA by lia; auto).
  apply (v_tdone _ _ _ V). destruct (v_pend _ _ _ V i a IA1 NA) as [D|(ca & CA & EI)]; auto.
  assert (WA : c_what ca = a) by (pose proof (v_at _ _ _ V ca CA) as X; rewrite EI in X; congruence).
  unfold may_start in MS. apply andb_true_iff in MS as (M1 & M2). rewrite forallb_forall in M1, M2.
  assert (DEP : dep a b -> In i (s_done s1)).
  { intros D. destruct (v_waits _ _ _ V ca c CA FC) as (e & SE & WE); [lia|congruence|]. apply M1 in WE. apply meme_in in WE. apply (v_sig _ _ _ V ca e CA SE) in WE. congruence. }
  destruct PR as [PR|[PR|[(BA & BB & m & ML & IM)|(k1 & k2 & EK & KL)]]]; [apply DEP; left; auto|apply DEP; right; auto| |].
  - destruct (later_cmds l1 s1 ca m R CA) as (cm & CM & EM); [congruence|rewrite (v_next _ _ _ V); lia|].
    assert (WM : c_what cm = Barrier).
    { pose proof (v_at _ _ _ V cm CM) as X. rewrite EM in X. rewrite calls_app, nth_error_app1 in IM by lia. congruence. }
    assert (LO : forall x o, In x (s_cmds s1) -> c_what x = o -> barriers_apply g o -> c_list x = COMP).
    { intros x o X <- Y. rewrite (v_list _ _ _ V x X). destruct Y as [Y|Y]; [destruct (c_what x); cbn; unfold place; rewrite ?Y; auto|destruct (c_what x); try discriminate; auto]. }
    assert (LM : c_list cm = COMP) by (rewrite (v_list _ _ _ V cm CM), WM; auto). pose proof (LO ca a CA WA BA) as LA. pose proof (LO c b FC H BB) as LC.
    assert (BM : In cm (before (c_id c) (s_sub s1))).
    { rewrite SB in *. apply sorted_before; auto.
      - apply submitted_sorted, (v_sorted _ _ _ V).
      - intros x y X Y EX. apply submitted_in in X as (X & _). apply submitted_in in Y as (Y & _). eapply sorted_unique; eauto. apply (v_sorted _ _ _ V).
      - apply submitted_in. split; auto. rewrite LM, <- LC. apply submitted_in in FS as (_ & FS). auto.
      - right. split; [congruence|lia]. }
    apply M2 in BM. rewrite LM, LC, WM in BM. cbn in BM. apply memn_in in BM. apply (v_done _ _ _ V), (v_ran _ _ _ V) in BM.
    rewrite <- EI. eapply (v_barrier _ _ _ V ca cm); eauto; [congruence|lia|rewrite WM; auto].
  - (* sync *)
    assert (PX : exists d, l1 = k1 ++ SyncEnd :: d).
    { destruct (prefixes _ _ _ _ _ EK) as [(d & -> & X)|(d & -> & X)].
      - destruct d as [|x d]; [cbn in X; discriminate|]. injection X as <- X. eauto.
      - rewrite calls_app, app_length in KL. destruct d as [|x d]; [cbn in X; discriminate|]. lia. }
    destruct PX as (d & ->). change (SyncEnd :: d) with ([SyncEnd] ++ d) in E1. rewrite app_assoc, run_app in E1. destruct (run g strict (init g) (k1 ++ [SyncEnd])) as [s2|] eqn:E2; [|discriminate].
    rewrite run_app in E2. destruct (run g strict (init g) k1) as [s3|] eqn:E3; [|discriminate]. cbn [run] in E2. destruct (step g strict s3 SyncEnd) as [s4|] eqn:ST; [|discriminate]. injection E2 as ->.
    pose proof (run_inv _ _ _ _ E3) as V3. destruct (inv_syncend _ _ _ _ _ V3 ST) as (V2 & [(_ & AD & _)|MI]).
    + assert (IK : nth_error (calls k1) i = Some a) by (rewrite calls_app, nth_error_app1 in IA1 by lia; auto). specialize (AD i a IK NA). apply (v_tdone _ _ _ V2) in AD. apply (v_tdone _ _ _ V).
      change (SyncEnd :: d) with ([SyncEnd] ++ d). rewrite app_assoc. apply in_or_app. auto.
    + pose proof (run_misused _ _ _ _ _ E1 MI) as C0. rewrite calls_app in JL. change (SyncEnd :: d) with ([SyncEnd] ++ d) in JL. rewrite calls_app, C0 in JL. cbn in JL. rewrite app_nil_r in JL. lia.
Qed.

(** ** sync waits for everything *)
Lemma sync_ok : forall g strict ls s, run g strict (init g) (ls ++ [SyncEnd]) = Some s -> (engine g = false \/ (multi g = true /\ tidy (batch ls))) ->
  s_phase s = Idle /\ (forall i o, is_at ls i o -> is_barrier o = false -> In (Finish i) ls) /\ (forall i k, is_at ls i (Launch k) -> In i (s_valid s)).
Proof.
  intros g strict ls s E CF. rewrite run_app in E. destruct (run g strict (init g) ls) as [s1|] eqn:E1; [|discriminate]. cbn [run] in E. destruct (step g strict s1 SyncEnd) as [s2|] eqn:ST; [|discriminate]. injection E as ->.
  pose proof (run_inv _ _ _ _ E1) as V. pose proof (run_recent _ _ _ _ E1) as (lead & rest & R1 & R2 & R3 & R4 & R5).
  destruct (inv_syncend _ _ _ _ _ V ST) as (V2 & X). cbn in ST. destruct (s_phase s1) eqn:PH; try discriminate. destruct (forallb (finished s1) (waited g s1)) eqn:WD; [|discriminate].
  assert (ALL : forallb (fun c => is_barrier (c_what c) || finished s1 c) (s_sub s1) = true).
  { rewrite forallb_forall in WD. apply forallb_forall. intros c C. pose proof (v_sub _ _ _ V) as [(Y & _)|(_ & SB)]; [congruence|].
    destruct (is_barrier (c_what c)) eqn:B; auto. cbn. unfold waited in WD. destruct CF as [CF|(MU & TI)]; [rewrite CF in WD; auto|].
    destruct (engine g) eqn:EG; [|auto]. rewrite SB in C. apply submitted_in in C as (C & _).
    assert (WH : map c_what rest = batch ls) by (apply R5; congruence). rewrite <- WH in TI.
    assert (REC : forall x, In x (s_cmds s1) -> is_barrier (c_what x) = false -> In x rest) by (intros x XI XB; rewrite R1 in XI; apply in_app_or in XI as [XI|XI]; auto; apply R2 in XI; congruence).
    assert (SUBM : forall x, In x (s_cmds s1) -> is_barrier (c_what x) = false -> In x (s_sub s1)) by (intros x XI XB; rewrite SB; apply submitted_in; split; auto; apply counted_true; auto).
    assert (RIN : forall x, In x rest -> In x (s_cmds s1)) by (intros; rewrite R1; apply in_or_app; auto).
    assert (PL : forall x, In x (s_cmds s1) -> c_list x = match c_what x with ToDev _ => H2D | ToHost _ => D2H | _ => COMP end).
    { intros x XI. rewrite (v_list _ _ _ V x XI). unfold list_of, place. rewrite MU. destruct (c_what x); auto. }
    assert (HELD : forall x y, In x (s_cmds s1) -> In y (s_cmds s1) -> c_id x < c_id y -> dep (c_what x) (c_what y) -> finished s1 y = true -> finished s1 x = true).
    { intros x y XI YI L D F. unfold finished in *. apply memn_in in F. apply memn_in. destruct (v_waits _ _ _ V x y XI YI L D) as (e & SE & WE). apply (v_sig _ _ _ V x e XI SE). eapply (v_held _ _ _ V y); eauto. apply (v_ran _ _ _ V), (v_done _ _ _ V). auto. }
    assert (SRT : forall p x q y, rest = p ++ x :: q -> In y p -> c_id y < c_id x).
    { intros p x q y ER YI. pose proof (v_sorted _ _ _ V) as SS. rewrite R1, ER in SS. clear - SS YI. rewrite app_assoc in SS. assert (YI2 : In y (lead ++ p)) by (apply in_or_app; auto). clear YI. revert SS YI2. generalize (lead ++ p). induction l as [|z l IH]; intros SS YI; [destruct YI|].
      cbn in SS. inversion SS as [|? ? S1 F]; subst. destruct YI as [-> |YI]; [|auto]. rewrite Forall_forall in F. apply F. apply in_or_app. right. left. auto. }
    assert (SPLIT : forall pre o post, map c_what rest = pre ++ o :: post -> exists p x q, rest = p ++ x :: q /\ map c_what p = pre /\ c_what x = o /\ map c_what q = post).
    { intros pre o post M. apply map_eq_app in M as (p & q' & -> & M1 & M2). destruct q' as [|x q]; [discriminate|]. injection M2 as M2 M3. exists p, x, q. auto. }
    assert (NCP : negb (length (s_comp s1) =? 0) = true <-> exists x, In x rest /\ is_compute (c_what x) = true).
    { rewrite negb_true_iff, Nat.eqb_neq. split.
      - intros N. destruct (s_comp s1) as [|(i0 & id0) r0] eqn:SC; [cbn in N; lia|]. destruct (proj1 (v_comp _ _ _ V i0 id0)) as (x & XI & XC & _); [rewrite SC; left; auto|]. exists x. split; auto. apply REC; auto. destruct (c_what x); try discriminate; auto.
      - intros (x & XI & XC). apply RIN in XI. pose proof (v_kind _ _ _ V x XI) as K. assert (KE : exists j, c_signal x = Some (CompEv j)) by (destruct (c_what x); try discriminate; auto). destruct KE as (j & KE).
        assert (IC : In (j, c_id x) (s_comp s1)) by (apply (v_comp _ _ _ V); exists x; auto). destruct (s_comp s1); [destruct IC|cbn; lia]. }
    destruct TI as [(pre & post & m & TE & TP)|[(NH & k & pre & post & TE & TP)|[TP|TP]]].
    - apply SPLIT in TE as (p & x & q & ER & EP & EX & EQ'). assert (XR : In x rest) by (rewrite ER; apply in_or_app; right; left; auto). pose proof (RIN x XR) as XC.
      assert (CD : counted D2H (s_cmds s1) = true).
      { pose proof (counted_true x (s_cmds s1) XC) as Y. rewrite EX in Y. rewrite (PL x XC), EX in Y. auto. }
      rewrite CD in WD. assert (XD : finished s1 x = true) by (apply WD; apply filter_In; split; [apply SUBM; auto; rewrite EX; auto|rewrite (PL x XC), EX; auto]).
      destruct (is_compute (c_what c)) eqn:IC.
      + pose proof (REC c C B) as CR. rewrite ER in CR. apply in_app_or in CR as [CR|[<- |CR]].
        * eapply HELD with (y := x); eauto. right. rewrite EX. auto.
        * auto.
        * exfalso. rewrite forallb_forall in TP. assert (In (c_what c) post) by (rewrite <- EQ'; apply in_map; auto). apply TP in H. rewrite IC in H. discriminate.
      + apply WD. apply filter_In. split; [apply SUBM; auto|]. rewrite (PL c C). destruct (c_what c); try discriminate; auto.
    - apply SPLIT in TE as (p & x & q & ER & EP & EX & EQ'). assert (XR : In x rest) by (rewrite ER; apply in_or_app; right; left; auto). pose proof (RIN x XR) as XC.
      assert (CD : counted D2H (s_cmds s1) = false).
      { destruct (counted D2H (s_cmds s1)) eqn:Y; auto. unfold counted in Y. apply existsb_exists in Y as (z & Z & Y). apply andb_true_iff in Y as (Y1 & Y2). apply negb_true_iff in Y2. pose proof (REC z Z Y2) as ZR. rewrite (PL z Z) in Y1.
        destruct (c_what z) as [|mm| | |] eqn:WZ; try discriminate. exfalso. apply (NH mm). rewrite <- WZ. apply in_map. auto. }
      rewrite CD in WD. assert (NC : negb (length (s_comp s1) =? 0) = true) by (apply NCP; exists x; split; auto; rewrite EX; auto). rewrite NC in WD.
      assert (XD : finished s1 x = true) by (apply WD; apply filter_In; split; [apply SUBM; auto; rewrite EX; auto|rewrite (PL x XC), EX; auto]).
      destruct (c_what c) as [mm|mm|dd ss|kk|] eqn:WC; try discriminate.
      + pose proof (REC c C) as CR. rewrite WC in CR. specialize (CR eq_refl). rewrite ER in CR. apply in_app_or in CR as [CR|[CR|CR]]; [|congruence|].
        * eapply HELD with (y := x); eauto. left. rewrite WC, EX. split; eauto.
        * exfalso. rewrite forallb_forall in TP. assert (Y : In (c_what c) post) by (rewrite <- EQ'; apply in_map; auto). apply TP in Y. rewrite WC in Y. discriminate.
      + exfalso. pose proof (REC c C) as CR. rewrite WC in CR. apply (NH mm). rewrite <- WC. apply in_map. auto.
      + apply WD. apply filter_In. split; [apply SUBM; auto; rewrite WC; auto|]. rewrite (PL c C), WC. auto.
      + apply WD. apply filter_In. split; [apply SUBM; auto; rewrite WC; auto|]. rewrite (PL c C), WC. auto.
    - rewrite forallb_forall in TP. pose proof (REC c C B) as CR. assert (NC : is_compute (c_what c) = false) by (assert (Y : In (c_what c) (map c_what rest)) by (apply in_map; auto); apply TP, negb_true_iff in Y; auto).
      assert (N0 : negb (length (s_comp s1) =? 0) = false).
      { destruct (negb (length (s_comp s1) =? 0)) eqn:Y; auto. destruct (proj1 NCP eq_refl) as (z & Z & ZC). assert (Y2 : In (c_what z) (map c_what rest)) by (apply in_map; auto). apply TP in Y2. rewrite ZC in Y2. discriminate. }
      rewrite N0 in WD. assert (QQ : finished s1 c = true \/ (counted D2H (s_cmds s1) = false /\ counted H2D (s_cmds s1) = false)).
      { destruct (counted D2H (s_cmds s1)); [left; apply WD; apply filter_In; split; [apply SUBM; auto|rewrite (PL c C); destruct (c_what c); try discriminate; auto]|].
        destruct (counted H2D (s_cmds s1)); [left; apply WD; apply filter_In; split; [apply SUBM; auto|rewrite (PL c C); destruct (c_what c); try discriminate; auto]|auto]. }
      destruct QQ as [QQ|(Q1 & Q2)]; auto. exfalso. pose proof (counted_true c (s_cmds s1) C B) as Y. rewrite (PL c C) in Y. destruct (c_what c); try discriminate; congruence.
    - rewrite forallb_forall in TP. pose proof (REC c C B) as CR.
      assert (NH : forall x, In x (s_cmds s1) -> is_barrier (c_what x) = false -> is_compute (c_what x) = true).
      { intros x XI XB. pose proof (REC x XI XB) as XR. assert (Y : In (c_what x) (map c_what rest)) by (apply in_map; auto). apply TP in Y. destruct (c_what x); try discriminate; auto. }
      assert (CD : forall l, l <> COMP -> counted l (s_cmds s1) = false).
      { intros l NL. destruct (counted l (s_cmds s1)) eqn:Y; auto. unfold counted in Y. apply existsb_exists in Y as (z & Z & Y). apply andb_true_iff in Y as (Y1 & Y2). apply negb_true_iff in Y2. pose proof (NH z Z Y2) as ZC. rewrite (PL z Z) in Y1.
        destruct (lst_eqb_spec (match c_what z with ToDev _ => H2D | ToHost _ => D2H | _ => COMP end) l) as [<- |]; [|discriminate]. destruct (c_what z); try discriminate; congruence. }
      rewrite (CD D2H) in WD by discriminate. assert (N0 : negb (length (s_comp s1) =? 0) = true) by (apply NCP; exists c; auto). rewrite N0 in WD.
      apply WD. apply filter_In. split; [apply SUBM; auto|]. rewrite (PL c C). pose proof (NH c C B) as Y. destruct (c_what c); try discriminate; auto. }
  rewrite ALL in ST. injection ST as <-. destruct X as [(X1 & X2 & X3)|X]; [|discriminate]. split; auto. split.
  - intros i o IO B. specialize (X2 i o IO B). apply (v_tdone _ _ _ V2) in X2. apply in_snoc in X2 as [X2|X2]; [auto|discriminate].
  - intros i k IO. apply (v_valid _ _ _ V2). exists (Launch k). split; [rewrite calls_other by discriminate; auto|]. split; auto. intros (c & C & EC). pose proof (v_at _ _ _ V2 c C) as AT. rewrite EC, calls_other in AT by discriminate. apply X3 in C. unfold is_at in IO. rewrite IO in AT. injection AT as AT. rewrite <- AT in C. discriminate.
Qed.
