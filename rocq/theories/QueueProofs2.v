(** Proofs about the task queue (C68): calls and sync. *)
From Coq Require Import List Bool Arith Lia Permutation Sorting.Sorted.
Import ListNotations.
From Verif Require Import QueueModel QueueSpec QueueProofs.

Definition waits_for (s : sys) (o : what) : list ev :=
  match o with Launch _ => s_copy s | ToHost _ => map (fun p => CompEv (fst p)) (s_comp s) | _ => [] end.
Definition kind_ok (o : what) (sg : option ev) : Prop :=
  match o with ToDev _ => exists i, sg = Some (CopyEv i) | CopyDev _ _ | Launch _ => exists i, sg = Some (CompEv i) | _ => sg = None end.
Lemma nth_snoc : forall A (l : list A) x i y, nth_error (l ++ [x]) i = Some y <-> nth_error l i = Some y \/ (i = length l /\ y = x).
Proof.
  intros A l x i y. destruct (Nat.lt_trichotomy i (length l)) as [L|[L|L]].
  - rewrite nth_error_app1 by lia. split; [auto|intros [H|(H & _)]; [auto|lia]].
  - subst i. rewrite nth_error_app2 by lia. rewrite Nat.sub_diag. cbn. split; [intros H; injection H as <-; auto|intros [H|(_ & ->)]; auto]. apply nth_error_Some_len in H || (assert (length l < length l) by (apply nth_error_Some; congruence); lia).
  - rewrite nth_error_app2 by lia. split; [intros H|intros [H|(H & _)]; [|lia]]; exfalso.
    + destruct (i - length l) eqn:E; [lia|]. cbn in H. destruct n; discriminate.
    + assert (i < length l) by (apply nth_error_Some; congruence). lia.
Qed.
Lemma inv_add : forall g ls s o free cfree cpool sig copy comp c, inv g ls s -> s_phase s = Idle ->
  c_id c = s_next s -> c_what c = o -> c_list c = list_of g o -> kind_ok o (c_signal c) -> c_waits c = waits_for s o ->
  (forall e, In e sig <-> In e (s_sig s) /\ c_signal c <> Some e) ->
  (forall a e, In a (s_cmds s) -> c_signal a = Some e -> c_signal c <> Some e) ->
  (forall e, In e copy <-> In e (s_copy s) \/ (is_todev o = true /\ c_signal c = Some e)) ->
  (forall i id, In (i, id) comp <-> In (i, id) (s_comp s) \/ (is_compute o = true /\ c_signal c = Some (CompEv i) /\ id = c_id c)) ->
  (forall i, In i cpool <-> In i (s_cpool s) \/ c_signal c = Some (CopyEv i)) ->
  Permutation (cpool ++ cfree) (seq 0 (max_copies g)) -> Permutation (free ++ map fst comp) (seq 0 (max_launches g)) ->
  inv g (ls ++ [Do o]) (add_cmd s free cfree cpool sig copy comp c).
Proof.
  intros g ls s o free cfree cpool sig copy comp c V PH ID WH LI KI WA SG FR CO CM CP P1 P2.
  assert (CE : calls (ls ++ [Do o]) = calls ls ++ [o]) by (rewrite calls_app; auto).
  pose proof V as V0. destruct V.
  assert (LT : forall a, In a (s_cmds s) -> c_id a < s_next s).
  { intros a A. rewrite v_next. apply nth_error_Some. rewrite (v_at a A). discriminate. }
  assert (NS : ~ In (c_id c) (s_started s)) by (intros H; apply v_started in H; lia).
  assert (ND : forall a e, In a (s_cmds s) -> c_signal a = Some e -> ~ In e (s_sig s)).
  { intros a e A E H. apply (v_sig a e A E) in H. apply v_done, v_ran in H. eapply v_idle; eauto. }
  constructor; unfold add_cmd; cbn [s_phase s_free s_cfree s_cpool s_cmds s_copy s_comp s_next s_sub s_started s_ran s_done s_sig s_valid]; rewrite ?CE; auto; try (intros; congruence).
  - rewrite app_length. cbn. lia.
  - intros a A. apply in_snoc in A as [A| ->]; apply nth_snoc; [left; auto|right]. split; [congruence|auto].
  - apply sorted_app; auto; [constructor; [constructor|constructor]|]. intros a b A [<- |[]]. unfold by_id. rewrite ID. auto.
  - intros i o0 H B. apply nth_snoc in H as [H|(-> & ->)].
    + destruct (v_pend i o0 H B) as [H2|(c2 & H2 & E2)]; auto. right. exists c2. split; auto. apply in_snoc. auto.
    + right. exists c. split; [apply in_snoc; auto|congruence].
  - intros a A. apply in_snoc in A as [A| ->]; auto. congruence.
  - destruct v_sub as [X|(X & _)]; [left; auto|congruence].
  - intros _ a A. apply in_snoc in A as [A| ->]; auto.
  - intros a A H. apply in_snoc in A as [A| ->]; [auto|contradiction].
  - intros i H. apply v_started in H. lia.
  - intros i. rewrite in_snoc_other by discriminate. auto.
  - intros i. rewrite in_snoc_other by discriminate. auto.
  - intros i. rewrite in_snoc_other by discriminate. auto.
  - intros a A. apply in_snoc in A as [A| ->]; [apply v_kind; auto|]. rewrite WH. exact KI.
  - intros a e A E. rewrite SG. apply in_snoc in A as [A| ->].
    + rewrite <- (v_sig a e A E). split; [tauto|]. intros H. split; auto. eapply FR; eauto.
    + split; [intros (_ & H); congruence|]. intros H. apply v_done, v_ran, v_started in H. lia.
  - intros a b e A B EA EB. apply in_snoc in A as [A| ->]; apply in_snoc in B as [B| ->]; auto; [eauto|exfalso; eapply FR; eauto|exfalso; eapply FR; eauto].
  - intros e. rewrite CO, v_copy. split.
    + intros [(a & A & T & E)|(T & E)]; [exists a|exists c]; (split; [apply in_snoc; auto|]); split; congruence || auto.
    + intros (a & A & T & E). apply in_snoc in A as [A| ->]; [left; eauto|right; split; congruence].
  - intros i id. rewrite CM, v_comp. split.
    + intros [(a & A & T & E & I0)|(T & E & I0)]; [exists a|exists c]; (split; [apply in_snoc; auto|]); (split; [congruence|]); split; congruence.
    + intros (a & A & T & E & I0). apply in_snoc in A as [A| ->]; [left; eauto 6|right; split; [congruence|split; congruence]].
  - intros a b A B L D. apply in_snoc in A as [A| ->]; apply in_snoc in B as [B| ->]; auto; [|apply LT in B; lia|lia].
    rewrite WH in D. destruct D as [(D & k & ->)|(D & D2)].
    + pose proof (v_kind a A) as K. destruct (c_what a); try discriminate. destruct K as (i & K). exists (CopyEv i). split; auto. rewrite WA. cbn. apply v_copy. exists a. split; auto. split; auto.
      pose proof (v_at a A) as AT. destruct (c_what a) eqn:WW; auto; pose proof (v_kind a A) as K2; rewrite WW in K2; try (destruct K2; congruence); congruence.
    + assert (EC : exists i, c_signal a = Some (CompEv i)) by (pose proof (v_kind a A) as K; destruct (c_what a); try discriminate; auto). destruct EC as (i & EC). exists (CompEv i). split; auto.
      rewrite WA. destruct o; try discriminate. cbn. apply in_map_iff. exists (i, c_id a). split; auto. apply v_comp. exists a. auto.
  - intros b e B W. apply in_snoc in B as [B| ->].
    + destruct (v_waited b e B W) as (a & A & L & E & D). exists a. split; [apply in_snoc; auto|]. auto.
    + rewrite WA in W. rewrite WH. destruct o; cbn in W; try (destruct W).
      * apply in_map_iff in W as ((i & id) & <- & W). apply v_comp in W as (a & A & T & E & I0). exists a. split; [apply in_snoc; auto|]. split; [rewrite ID; auto|]. split; auto. right. auto.
      * apply v_copy in W as (a & A & T & E). exists a. split; [apply in_snoc; auto|]. split; [rewrite ID; auto|]. split; auto. left. eauto.
  - intros a i A E. apply CP. apply in_snoc in A as [A| ->]; eauto.
  - intros i H. apply SG in H as (H & _). apply CP. auto.
  - intros i H N. apply CP in H. destruct (c_signal c) as [e|] eqn:SC; [destruct (ev_eqb_spec e (CopyEv i)) as [-> |NE]|].
    + exists c. split; [apply in_snoc; auto|auto].
    + destruct H as [H|H]; [|congruence]. destruct (v_cfree i H) as (a & A & E); [intros X; apply N; apply SG; split; auto; congruence|]. exists a. split; [apply in_snoc; auto|auto].
    + destruct H as [H|H]; [|congruence]. destruct (v_cfree i H) as (a & A & E); [intros X; apply N; apply SG; split; auto; congruence|]. exists a. split; [apply in_snoc; auto|auto].
  - intros i H. apply SG in H as (H & _). destruct (v_ksig i H) as (a & A & E). exists a. split; [apply in_snoc; auto|auto].
  - intros a b A B L I0 BA ST. apply in_snoc in B as [B| ->]; [|contradiction]. apply in_snoc in A as [A| ->]; [eauto|apply LT in B; lia].
  - intros b e B ST W. apply in_snoc in B as [B| ->]; [|contradiction]. exfalso. eapply v_idle; eauto.
  - intros i. rewrite v_valid. split.
    + intros (o0 & H & K & N). exists o0. split; [apply nth_snoc; auto|]. split; auto. intros (a & A & E). apply in_snoc in A as [A| ->]; [eauto|]. assert (i < length (calls ls)) by (apply nth_error_Some; congruence). lia.
    + intros (o0 & H & K & N). apply nth_snoc in H as [H|(-> & ->)]; [exists o0; split; auto; split; auto; intros (a & A & E); apply N; exists a; split; auto; apply in_snoc; auto|].
      exfalso. apply N. exists c. split; [apply in_snoc; auto|congruence].
Qed.
Lemma perm_nodup : forall l n, Permutation l (seq 0 n) -> NoDup l.
Proof. intros l n H. eapply Permutation_NoDup; [symmetry; exact H|apply seq_NoDup]. Qed.
Lemma nodup_app_not : forall A (l l' : list A) x, NoDup (l ++ l') -> In x l -> ~ In x l'.
Proof. induction l as [|y l IH]; intros l' x N H; [destruct H|]. cbn in N. inversion N; subst. destruct H as [-> |H]; auto. intros X. apply H2. apply in_or_app. auto. Qed.
Lemma inv_do : forall g strict ls s o s', inv g ls s -> step g strict s (Do o) = Some s' -> inv g (ls ++ [Do o]) s'.
Proof.
  intros g strict ls s o s' V E. assert (PH : s_phase s = Idle) by (cbn in E; destruct (s_phase s); auto; discriminate).
  assert (E' : call g s o = Some s') by (cbn in E; rewrite PH in E; auto). clear E.
  assert (NOSIG : forall sig, (forall e, In e sig <-> In e sig /\ (None : option ev) <> Some e)) by (intros; intuition discriminate).
  pose proof (v_kperm _ _ _ V) as KP. pose proof (v_cperm _ _ _ V) as CP.
  assert (COMPUTE : forall o i free w, is_compute o = true -> s_free s = i :: free -> w = waits_for s o ->
    inv g (ls ++ [Do o]) (add_cmd s free (s_cfree s) (s_cpool s) (s_sig s) (s_copy s) (s_comp s ++ [(i, s_next s)]) (Cmd (s_next s) o COMP (Some (CompEv i)) w))).
  { clear E' o. intros o i free w IC EF EW.
    assert (NI : ~ In i (map fst (s_comp s))) by (eapply nodup_app_not; [eapply perm_nodup; exact KP|rewrite EF; left; auto]).
    assert (NE : forall a e, In a (s_cmds s) -> c_signal a = Some e -> e <> CompEv i).
    { intros a e A SA ->. apply NI. apply in_map_iff. exists (i, c_id a). split; auto. apply (v_comp _ _ _ V). exists a. split; auto. split; auto.
      pose proof (v_kind _ _ _ V a A) as K. destruct (c_what a); auto; try (destruct K; congruence); congruence. }
    apply inv_add; cbn [c_id c_what c_list c_signal c_waits]; auto.
    - destruct o; try discriminate; auto.
    - destruct o; try discriminate; eexists; reflexivity.
    - intros e. split; [intros H; split; auto; intros X; injection X as <-|tauto]. destruct (v_ksig _ _ _ V i H) as (a & A & SA). eapply NE; eauto.
    - intros a e A SA X. injection X as <-. eapply NE; eauto.
    - intros e. destruct o; try discriminate; cbn; intuition discriminate.
    - intros j id. rewrite in_snoc. split; [intros [H|H]; [auto|injection H as -> ->; auto]|]. intros [H|(_ & H & ->)]; auto. injection H as ->. auto.
    - intros j. intuition discriminate.
    - rewrite map_app. cbn. rewrite EF in KP. rewrite <- KP. cbn. rewrite app_assoc. symmetry. apply Permutation_cons_append. }
  destruct o; cbn in E'.
  - unfold get_copy in E'. destruct (find (fun i => meme (CopyEv i) (s_sig s)) (s_cpool s)) as [i|] eqn:F.
    + injection E' as <-. apply find_some in F as (F1 & F2). apply meme_in in F2. apply inv_add; cbn [c_id c_what c_list c_signal c_waits]; auto.
      * eexists. reflexivity.
      * intros e. rewrite dele_in. intuition congruence.
      * intros a e A SA X. injection X as <-. apply (v_sig _ _ _ V a _ A SA) in F2. apply (v_done _ _ _ V), (v_ran _ _ _ V) in F2. eapply (v_idle _ _ _ V); eauto.
      * intros e. rewrite in_snoc. cbn. intuition congruence.
      * intros j id. cbn. intuition discriminate.
      * intros j. split; auto. intros [H|H]; auto. congruence.
    + destruct (s_cfree s) as [|i r] eqn:CF; [discriminate|]. injection E' as <-.
      assert (NI : ~ In i (s_cpool s)) by (intros X; eapply nodup_app_not; [eapply perm_nodup; exact CP|exact X|left; auto]).
      apply inv_add; cbn [c_id c_what c_list c_signal c_waits]; auto.
      * eexists. reflexivity.
      * intros e. split; [|tauto]. intros H. split; auto. intros X. injection X as <-. apply NI. apply (v_csig _ _ _ V). auto.
      * intros a e A SA X. injection X as <-. apply NI. eapply (v_cused _ _ _ V); eauto.
      * intros e. rewrite in_snoc. cbn. intuition congruence.
      * intros j id. cbn. intuition discriminate.
      * intros j. rewrite in_snoc. intuition congruence.
      * rewrite <- app_assoc. auto.
  - injection E' as <-. apply inv_add; cbn [c_id c_what c_list c_signal c_waits kind_ok is_todev is_compute]; auto; intros; intuition discriminate.
  - destruct (s_free s) as [|i free] eqn:EF; [discriminate|]. injection E' as <-. apply COMPUTE; auto.
  - destruct (s_free s) as [|i free] eqn:EF; [discriminate|]. injection E' as <-. apply COMPUTE; auto.
  - injection E' as <-. apply inv_add; cbn [c_id c_what c_list c_signal c_waits kind_ok is_todev is_compute]; auto; intros; intuition discriminate.
Qed.
Lemma inv_fail : forall g strict ls s o s', inv g ls s -> step g strict s (Fail o) = Some s' -> inv g (ls ++ [Fail o]) s'.
Proof.
  intros g strict ls s o s' V E. cbn in E. assert (s' = s) by (destruct (s_phase s); try discriminate; destruct (call g s o); congruence). subst s'.
  assert (CE : calls (ls ++ [Fail o]) = calls ls) by (apply calls_other; discriminate).
  destruct V. constructor; rewrite ?CE; auto; intros i; rewrite in_snoc_other by discriminate; auto.
Qed.
Lemma inv_phase : forall g ls s l p, inv g ls s -> (forall o, l <> Do o) -> (forall i, l <> Start i) -> (forall i, l <> Effect i) -> (forall i, l <> Finish i) -> p <> Idle ->
  inv g (ls ++ [l]) (with_phase s p (submitted (s_cmds s))).
Proof.
  intros g ls s l p V L1 L2 L3 L4 P. assert (CE : calls (ls ++ [l]) = calls ls) by (apply calls_other; auto).
  destruct V. constructor; unfold with_phase; cbn [s_phase s_free s_cfree s_cpool s_cmds s_copy s_comp s_next s_sub s_started s_ran s_done s_sig s_valid]; rewrite ?CE; auto; try (intros; congruence); try (intros i; rewrite in_snoc_other by congruence; auto).
  intros c C H. destruct v_sub as [(X & E)|(X & E)]; [exfalso; eapply v_idle; eauto|rewrite <- E; auto].
Qed.
Lemma inv_syncend : forall g strict ls s s', inv g ls s -> step g strict s SyncEnd = Some s' ->
  inv g (ls ++ [SyncEnd]) s' /\ ((s_phase s' = Idle /\ (forall i o, nth_error (calls ls) i = Some o -> is_barrier o = false -> In i (s_done s')) /\ (forall c, In c (s_cmds s') -> is_barrier (c_what c) = true)) \/ s_phase s' = Misused).
Proof.
  intros g strict ls s s' V E. cbn in E. destruct (s_phase s) eqn:PH; try discriminate. destruct (forallb (finished s) (waited g s)); [|discriminate].
  destruct (forallb (fun c => is_barrier (c_what c) || finished s c) (s_sub s)) eqn:AD; injection E as <-.
  2: { split; [|right; auto]. destruct (v_sub _ _ _ V) as [(X & _)|(_ & X)]; [congruence|]. rewrite X. apply inv_phase; auto; discriminate. }
  rewrite forallb_forall in AD. pose proof (v_sub _ _ _ V) as [(X & _)|(_ & SB)]; [congruence|]. rewrite SB in AD.
  assert (DN : forall c, In c (s_cmds s) -> is_barrier (c_what c) = false -> In (c_id c) (s_done s)).
  { intros c C B. assert (H : In c (submitted (s_cmds s))) by (apply submitted_in; split; auto; apply counted_true; auto). apply AD in H. rewrite B in H. cbn in H. apply memn_in in H. auto. }
  assert (LB : forall c, In c (s_cmds (after_sync s)) -> In c (s_cmds s) /\ is_barrier (c_what c) = true /\ counted (c_list c) (s_cmds s) = false).
  { intros c C. cbn in C. apply filter_In in C as (C & N). apply negb_true_iff in N. split; auto. split; auto. destruct (is_barrier (c_what c)) eqn:B; auto. rewrite (counted_true c) in N; auto. }
  assert (CE : calls (ls ++ [SyncEnd]) = calls ls) by (apply calls_other; discriminate).
  assert (PD : forall i o, nth_error (calls ls) i = Some o -> is_barrier o = false -> In i (s_done s)).
  { intros i o H B. destruct (v_pend _ _ _ V i o H B) as [D|(c & C & <-)]; auto. apply DN; auto. rewrite (v_at _ _ _ V c C) in H. congruence. }
  split; [|left; split; [auto|]; split; [exact PD|intros c C; apply LB; auto]].
  pose proof V as V0. destruct V.
  assert (SI : forall e, In e (s_sig (after_sync s)) <-> In e (s_sig s) /\ ~ In e (map (fun p => CompEv (fst p)) (s_comp s))).
  { intros e. cbn. rewrite filter_In, negb_true_iff, meme_not. tauto. }
  assert (NS : forall c, In c (s_cmds (after_sync s)) -> c_signal c = None /\ c_waits c = []).
  { intros c C. apply LB in C as (C & B & _). pose proof (v_kind c C) as K. split; [destruct (c_what c); try discriminate; auto|]. destruct (c_waits c) as [|e r] eqn:W; auto.
    destruct (v_waited c e C) as (a & _ & _ & _ & D); [rewrite W; left; auto|]. destruct (c_what c); try discriminate. destruct D as [(_ & k & D)|(_ & D)]; discriminate. }
  assert (NST : forall c, In c (s_cmds (after_sync s)) -> ~ In (c_id c) (s_started s)).
  { intros c C H. pose proof (LB c C) as (C0 & B & CN). apply (v_onsub c C0) in H. rewrite SB in H. apply submitted_in in H as (_ & H). congruence. }
  constructor; rewrite ?CE; auto; try (intros i; rewrite in_snoc_other by discriminate; cbn; auto; fail).
  - intros c C. apply LB in C as (C & _). auto.
  - cbn. apply sorted_filter. auto.
  - intros i o H B. left. cbn. eauto.
  - intros c C. apply LB in C as (C & _). auto.
  - intros c C. pose proof (LB c C) as (C0 & B & _). apply v_kind. auto.
  - intros c e C E. apply NS in C as (C & _). congruence.
  - intros a b e C _ E. apply NS in C as (C & _). congruence.
  - intros e. split; [intros []|]. intros (c & C & T & _). apply LB in C as (_ & C & _). destruct (c_what c); discriminate.
  - intros i id. split; [intros []|]. intros (c & C & T & _). apply LB in C as (_ & C & _). destruct (c_what c); discriminate.
  - intros a b A _ _ D. apply LB in A as (_ & A & _). destruct (c_what a); try discriminate. destruct D as [(D & _)|(D & _)]; discriminate.
  - intros b e C W. apply NS in C as (_ & C). rewrite C in W. destruct W.
  - intros c i C E. apply NS in C as (C & _). congruence.
  - intros i H. apply SI in H as (H & _). auto.
  - intros i H N. exfalso. destruct (v_cfree i H) as (c & C & E).
    + intros X. apply N. apply SI. split; auto. intros Y. apply in_map_iff in Y as (p & Y & _). discriminate.
    + apply N. apply SI. split; [|intros Y; apply in_map_iff in Y as (p & Y & _); discriminate]. apply (v_sig c _ C E). apply DN; auto. pose proof (v_kind c C) as K. destruct (c_what c); auto; congruence.
  - intros i H. apply SI in H as (H & N). exfalso. apply N. destruct (v_ksig i H) as (c & C & E). apply in_map_iff. exists (i, c_id c). split; auto. apply v_comp. exists c. split; auto. split; auto.
    pose proof (v_kind c C) as K. destruct (c_what c); auto; try (destruct K; congruence); congruence.
  - cbn. rewrite app_nil_r. auto.
  - intros a c A C L I0 B H. exfalso. eapply NST; eauto.
  - intros c e C H. exfalso. eapply NST; eauto.
  - intros i. cbn [after_sync s_valid s_cmds]. rewrite in_app_iff, v_valid. split.
    + intros [H|(o & H & K & N)].
      * apply in_map_iff in H as ((j & id) & EI & H). cbn in EI. subst id. apply v_comp in H as (c & C & T & _ & <-). exists (c_what c). split; auto. split; auto. intros (c2 & C2 & E2). pose proof (LB c2 C2) as (C3 & B & _).
        assert (c2 = c) by (eapply sorted_unique; eauto). subst. destruct (c_what c); discriminate.
      * exists o. split; auto. split; auto. intros (c2 & C2 & E2). apply LB in C2 as (C2 & _). eauto.
    + intros (o & H & K & N). destruct (in_dec Nat.eq_dec i (map snd (s_comp s))) as [D|D]; auto. right. exists o. split; auto. split; auto. intros (c & C & EI). apply D.
      pose proof (v_at c C) as AT. rewrite EI in AT. assert (WO : c_what c = o) by congruence. pose proof (v_kind c C) as KK.
      assert (EC : exists j, c_signal c = Some (CompEv j)) by (rewrite WO in KK; destruct o; try discriminate; auto). destruct EC as (j & EC).
      apply in_map_iff. exists (j, i). split; auto. apply v_comp. exists c. split; auto. split; [congruence|auto].
Qed.
Lemma inv_step : forall g strict ls s l s', inv g ls s -> step g strict s l = Some s' -> inv g (ls ++ [l]) s'.
Proof.
  intros g strict ls s l s' V E. destruct l.
  - eapply inv_do; eauto.
  - eapply inv_fail; eauto.
  - cbn in E. destruct (s_phase s); try discriminate. injection E as <-. apply inv_phase; auto; discriminate.
  - eapply inv_syncend; eauto.
  - eapply inv_start; eauto.
  - eapply inv_effect; eauto.
  - eapply inv_finish; eauto.
Qed.
Lemma inv_run : forall g strict ls' ls s s', inv g ls s -> run g strict s ls' = Some s' -> inv g (ls ++ ls') s'.
Proof.
  induction ls' as [|l ls' IH]; intros ls s s' V E; cbn in E.
  - injection E as <-. rewrite app_nil_r. auto.
  - destruct (step g strict s l) as [s1|] eqn:ST; [|discriminate]. change (l :: ls') with ([l] ++ ls'). rewrite app_assoc. eapply IH; eauto. eapply inv_step; eauto.
Qed.
Lemma run_inv : forall g strict ls s, run g strict (init g) ls = Some s -> inv g ls s.
Proof. intros g strict ls s E. apply (inv_run g strict ls [] (init g) s); auto. apply inv_init. Qed.
Lemma run_app : forall g strict l l' s, run g strict s (l ++ l') = match run g strict s l with Some s1 => run g strict s1 l' | None => None end.
Proof. induction l as [|x l IH]; intros l' s; cbn; auto. destruct (step g strict s x); auto. Qed.
