(** Proofs about the task queue (C68): lists and the invariant. *)
From Coq Require Import List Bool Arith Lia Permutation Sorting.Sorted.
Import ListNotations.
From Verif Require Import QueueModel QueueSpec.

(** ** Small things *)
Lemma memn_in : forall i l, memn i l = true <-> In i l.
Proof.
  intros i l. unfold memn. rewrite existsb_exists. split; [intros (x & H & E); apply Nat.eqb_eq in E; subst; auto|intros H; exists i; split; auto; apply Nat.eqb_refl].
Qed.
Lemma memn_not : forall i l, memn i l = false <-> ~ In i l.
Proof. intros. rewrite <- memn_in. destruct (memn i l); split; intros; congruence. Qed.
Lemma ev_eqb_spec : forall a b, reflect (a = b) (ev_eqb a b).
Proof. intros [i|i] [j|j]; cbn; try (constructor; congruence); destruct (Nat.eqb_spec i j); constructor; congruence. Qed.
Lemma meme_in : forall e l, meme e l = true <-> In e l.
Proof.
  intros e l. unfold meme. rewrite existsb_exists. split; [intros (x & H & E); destruct (ev_eqb_spec e x); [subst; auto|discriminate]|intros H; exists e; split; auto; destruct (ev_eqb_spec e e); congruence].
Qed.
Lemma meme_not : forall e l, meme e l = false <-> ~ In e l.
Proof. intros. rewrite <- meme_in. destruct (meme e l); split; intros; congruence. Qed.
Lemma dele_in : forall e l x, In x (dele e l) <-> In x l /\ x <> e.
Proof. intros e l x. unfold dele. rewrite filter_In, negb_true_iff. destruct (ev_eqb_spec e x); intuition congruence. Qed.
Lemma lst_eqb_spec : forall a b, reflect (a = b) (lst_eqb a b).
Proof. intros [] []; constructor; congruence. Qed.

(** ** Order of commands on the device *)
Definition rank (l : lst) : nat := match l with H2D => 0 | COMP => 1 | D2H => 2 end.
Definition ahead (a b : cmd) : Prop := rank (c_list a) < rank (c_list b) \/ (c_list a = c_list b /\ c_id a < c_id b).
Lemma sorted_filter : forall A (R : A -> A -> Prop) f l, StronglySorted R l -> StronglySorted R (filter f l).
Proof.
  induction l as [|x l IH]; intros H; cbn; [constructor|]. inversion H as [|? ? S0 F]; subst. destruct (f x); auto. constructor; auto. apply Forall_forall. intros y Y. apply filter_In in Y as (Y & _).
  rewrite Forall_forall in F. auto.
Qed.
Lemma sorted_app : forall A (R : A -> A -> Prop) l1 l2, StronglySorted R l1 -> StronglySorted R l2 -> (forall a b, In a l1 -> In b l2 -> R a b) -> StronglySorted R (l1 ++ l2).
Proof.
  induction l1 as [|x l1 IH]; intros l2 S1 S2 H; cbn; auto. inversion S1 as [|? ? S0 F]; subst. constructor; [apply IH; auto; intros; apply H; auto; right; auto|].
  apply Forall_app. split; auto. apply Forall_forall. intros y Y. apply H; auto. left. auto.
Qed.
Definition by_id (a b : cmd) : Prop := c_id a < c_id b.
Lemma in_list_in : forall l cs c, In c (in_list l cs) <-> In c cs /\ c_list c = l /\ counted l cs = true.
Proof.
  intros l cs c. unfold in_list. destruct (counted l cs); [rewrite filter_In|split; [intros []|intros (_ & _ & H); discriminate]]. destruct (lst_eqb_spec (c_list c) l); intuition congruence.
Qed.
Lemma submitted_in : forall cs c, In c (submitted cs) <-> In c cs /\ counted (c_list c) cs = true.
Proof.
  intros cs c. unfold submitted. rewrite !in_app_iff, !in_list_in. split; [intuition congruence|]. intros (H & C). destruct (c_list c) eqn:L; rewrite ?L; auto.
Qed.
Lemma submitted_sorted : forall cs, StronglySorted by_id cs -> StronglySorted ahead (submitted cs).
Proof.
  intros cs S0. assert (IL : forall l, StronglySorted ahead (in_list l cs)).
  { intros l. unfold in_list. destruct (counted l cs); [|constructor]. assert (SF : StronglySorted by_id (filter (fun c => lst_eqb (c_list c) l) cs)) by (apply sorted_filter; auto).
    assert (AL : forall x, In x (filter (fun c => lst_eqb (c_list c) l) cs) -> c_list x = l) by (intros x X; apply filter_In in X as (_ & X); destruct (lst_eqb_spec (c_list x) l); [auto|discriminate]).
    induction SF as [|x r S1 IH F]; [constructor|]. constructor; [apply IH; intros; apply AL; right; auto|]. apply Forall_forall. intros y Y. rewrite Forall_forall in F. right. split; [|apply F; auto].
    rewrite (AL x), (AL y); auto; [right; auto|left; auto]. }
  unfold submitted. apply sorted_app; [apply IL|apply sorted_app; [apply IL|apply IL|]|].
  - intros a b A B. apply in_list_in in A as (_ & A & _). apply in_list_in in B as (_ & B & _). left. rewrite A, B. cbn. lia.
  - intros a b A B. apply in_list_in in A as (_ & A & _). apply in_app_or in B. destruct B as [B|B]; apply in_list_in in B as (_ & B & _); left; rewrite A, B; cbn; lia.
Qed.
Lemma ahead_irr : forall a, ~ ahead a a.
Proof. unfold ahead. intros a []; lia. Qed.
Lemma ahead_asym : forall a b, ahead a b -> ~ ahead b a.
Proof. unfold ahead. intros a b [H|(H & H1)] [H2|(H2 & H3)]; try lia; [rewrite H2 in H|rewrite H in H2]; lia. Qed.
Lemma sorted_before : forall l a b, StronglySorted ahead l -> (forall x y, In x l -> In y l -> c_id x = c_id y -> x = y) -> In a l -> In b l -> ahead a b -> In a (before (c_id b) l).
Proof.
  induction l as [|x l IH]; intros a b S0 U A B H; [destruct A|]. cbn [before]. destruct (Nat.eqb_spec (c_id x) (c_id b)) as [E|E].
  - assert (x = b) by (apply U; auto; left; auto). subst x. exfalso. destruct A as [-> |A]; [eapply ahead_irr; eauto|]. inversion S0 as [|? ? _ F]; subst. rewrite Forall_forall in F. eapply ahead_asym; eauto.
  - destruct A as [-> |A]; [left; auto|]. right. destruct B as [B|B]; [subst; congruence|]. inversion S0; subst. apply IH; auto. intros; apply U; auto; right; auto.
Qed.
Lemma before_in : forall l id a, In a (before id l) -> In a l /\ c_id a <> id.
Proof.
  induction l as [|x l IH]; intros id a H; cbn in H; [destruct H|]. destruct (Nat.eqb_spec (c_id x) id); [destruct H|]. destruct H as [<- |H]; [split; auto; left; auto|]. apply IH in H as (H & N). split; auto. right. auto.
Qed.
Lemma sorted_unique : forall l x y, StronglySorted by_id l -> In x l -> In y l -> c_id x = c_id y -> x = y.
Proof.
  induction l as [|z l IH]; intros x y S0 X Y E; [destruct X|]. inversion S0 as [|? ? S1 F]; subst. rewrite Forall_forall in F. unfold by_id in F.
  destruct X as [-> |X]; destruct Y as [-> |Y]; auto; [apply F in Y; lia|apply F in X; lia].
Qed.
Lemma find_sub : forall l id c, find (fun c => c_id c =? id) l = Some c -> In c l /\ c_id c = id.
Proof. intros l id c H. apply find_some in H as (H & E). apply Nat.eqb_eq in E. auto. Qed.

(** ** The invariant *)
Definition list_of (g : cfg) (o : what) : lst := match o with ToDev _ => place g H2D | ToHost _ => place g D2H | _ => COMP end.
Definition dep (a b : what) : Prop := (is_todev a = true /\ exists k, b = Launch k) \/ (is_compute a = true /\ is_tohost b = true).
Record inv (g : cfg) (ls : list label) (s : sys) : Prop := {
  v_next : s_next s = length (calls ls);
  v_at : forall c, In c (s_cmds s) -> nth_error (calls ls) (c_id c) = Some (c_what c);
  v_sorted : StronglySorted by_id (s_cmds s);
  v_pend : forall i o, nth_error (calls ls) i = Some o -> is_barrier o = false -> In i (s_done s) \/ exists c, In c (s_cmds s) /\ c_id c = i;
  v_list : forall c, In c (s_cmds s) -> c_list c = list_of g (c_what c);
  v_sub : (s_phase s = Idle /\ s_sub s = []) \/ (s_phase s <> Idle /\ s_sub s = submitted (s_cmds s));
  v_idle : s_phase s = Idle -> forall c, In c (s_cmds s) -> ~ In (c_id c) (s_started s);
  v_onsub : forall c, In c (s_cmds s) -> In (c_id c) (s_started s) -> In c (s_sub s);
  v_ran : forall i, In i (s_ran s) -> In i (s_started s);
  v_done : forall i, In i (s_done s) -> In i (s_ran s);
  v_started : forall i, In i (s_started s) -> i < s_next s;
  v_tstart : forall i, In i (s_started s) <-> In (Start i) ls;
  v_tran : forall i, In i (s_ran s) <-> In (Effect i) ls;
  v_tdone : forall i, In i (s_done s) <-> In (Finish i) ls;
  v_kind : forall c, In c (s_cmds s) -> match c_what c with ToDev _ => exists i, c_signal c = Some (CopyEv i) | CopyDev _ _ | Launch _ => exists i, c_signal c = Some (CompEv i) | _ => c_signal c = None end;
  v_sig : forall c e, In c (s_cmds s) -> c_signal c = Some e -> (In e (s_sig s) <-> In (c_id c) (s_done s));
  v_inj : forall a b e, In a (s_cmds s) -> In b (s_cmds s) -> c_signal a = Some e -> c_signal b = Some e -> a = b;
  v_copy : forall e, In e (s_copy s) <-> exists c, In c (s_cmds s) /\ is_todev (c_what c) = true /\ c_signal c = Some e;
  v_comp : forall i id, In (i, id) (s_comp s) <-> exists c, In c (s_cmds s) /\ is_compute (c_what c) = true /\ c_signal c = Some (CompEv i) /\ c_id c = id;
  v_waits : forall a b, In a (s_cmds s) -> In b (s_cmds s) -> c_id a < c_id b -> dep (c_what a) (c_what b) -> exists e, c_signal a = Some e /\ In e (c_waits b);
  v_waited : forall b e, In b (s_cmds s) -> In e (c_waits b) -> exists a, In a (s_cmds s) /\ c_id a < c_id b /\ c_signal a = Some e /\ dep (c_what a) (c_what b);
  v_cused : forall c i, In c (s_cmds s) -> c_signal c = Some (CopyEv i) -> In i (s_cpool s);
  v_csig : forall i, In (CopyEv i) (s_sig s) -> In i (s_cpool s);
  v_cfree : forall i, In i (s_cpool s) -> ~ In (CopyEv i) (s_sig s) -> exists c, In c (s_cmds s) /\ c_signal c = Some (CopyEv i);
  v_cperm : Permutation (s_cpool s ++ s_cfree s) (seq 0 (max_copies g));
  v_ksig : forall i, In (CompEv i) (s_sig s) -> exists c, In c (s_cmds s) /\ c_signal c = Some (CompEv i);
  v_kperm : Permutation (s_free s ++ map fst (s_comp s)) (seq 0 (max_launches g));
  v_barrier : forall a c, In a (s_cmds s) -> In c (s_cmds s) -> c_list a = c_list c -> c_id a < c_id c -> is_barrier (c_what c) = true -> In (c_id c) (s_started s) -> In (c_id a) (s_done s);
  v_held : forall c e, In c (s_cmds s) -> In (c_id c) (s_started s) -> In e (c_waits c) -> In e (s_sig s);
  v_valid : forall i, In i (s_valid s) <-> exists o, nth_error (calls ls) i = Some o /\ is_compute o = true /\ ~ (exists c, In c (s_cmds s) /\ c_id c = i);
}.
Lemma inv_init : forall g, inv g [] (init g).
Proof.
  intros g. constructor; cbn; auto; try tauto; try (intros; tauto).
  - constructor.
  - intros i o H. destruct i; discriminate.
  - intros e. split; [intros []|intros (c & [] & _)].
  - intros i id. split; [intros []|intros (c & [] & _)].
  - rewrite app_nil_r. auto.
  - intros i. split; [intros []|]. intros (o & H & _). destruct i; discriminate.
Qed.
Lemma calls_app : forall l l', calls (l ++ l') = calls l ++ calls l'.
Proof. intros. apply flat_map_app. Qed.
Lemma calls_other : forall ls l, (forall o, l <> Do o) -> calls (ls ++ [l]) = calls ls.
Proof. intros ls l H. rewrite calls_app. destruct l; cbn; rewrite ?app_nil_r; auto. destruct (H o); auto. Qed.
Lemma in_snoc : forall A (x y : A) l, In x (l ++ [y]) <-> In x l \/ x = y.
Proof. intros. rewrite in_app_iff. cbn. intuition. Qed.
Lemma in_snoc_other : forall (x y : label) l, x <> y -> (In x (l ++ [y]) <-> In x l).
Proof. intros. rewrite in_snoc. intuition congruence. Qed.
Lemma counted_true : forall c cs, In c cs -> is_barrier (c_what c) = false -> counted (c_list c) cs = true.
Proof. intros c cs H B. unfold counted. apply existsb_exists. exists c. split; auto. rewrite B. destruct (lst_eqb_spec (c_list c) (c_list c)); auto. Qed.

(** ** Steps of the device *)
Lemma sub_in : forall g ls s c, inv g ls s -> In c (s_sub s) -> In c (s_cmds s) /\ s_phase s <> Idle.
Proof. intros g ls s c V H. destruct (v_sub g ls s V) as [(_ & E)|(P & E)]; rewrite E in H; [destruct H|]. apply submitted_in in H as (H & _). auto. Qed.
Lemma inv_start : forall g strict ls s id s', inv g ls s -> step g strict s (Start id) = Some s' -> inv g (ls ++ [Start id]) s'.
Proof.
  intros g strict ls s id s' V E. cbn in E. destruct (find _ (s_sub s)) as [c|] eqn:F; [|destruct (s_phase s); discriminate]. apply find_sub in F as (F & <-).
  destruct (sub_in _ _ _ _ V F) as (FC & PH). destruct (negb (memn (c_id c) (s_started s)) && may_start g strict s c) eqn:C; [|destruct (s_phase s); discriminate].
  assert (s' = with_dev s (c_id c :: s_started s) (s_ran s) (s_done s) (s_sig s)) by (destruct (s_phase s); congruence). subst s'. clear E. apply andb_true_iff in C as (C1 & C2). apply negb_true_iff, memn_not in C1.
  unfold may_start in C2. apply andb_true_iff in C2 as (C2 & C3). rewrite forallb_forall in C2, C3.
  assert (CE : calls (ls ++ [Start (c_id c)]) = calls ls) by (apply calls_other; discriminate).
  pose proof V as V0. destruct V. constructor; unfold with_dev; cbn [s_phase s_free s_cfree s_cpool s_cmds s_copy s_comp s_next s_sub s_started s_ran s_done s_sig s_valid]; rewrite ?CE; auto; try (intros; congruence).
  - intros c0 C0 [H|H]; auto. assert (c0 = c) by (eapply sorted_unique; eauto). subst. auto.
  - right. auto.
  - intros i [<- |H]; auto. rewrite v_next0. apply nth_error_Some. rewrite (v_at0 c FC). discriminate.
  - intros i. rewrite in_snoc. cbn [In]. rewrite v_tstart0. intuition congruence.
  - intros i. rewrite in_snoc_other by discriminate. auto.
  - intros i. rewrite in_snoc_other by discriminate. auto.
  - intros a c0 A C0 L I0 B [H|H]; [|eauto]. assert (c0 = c) by (eapply sorted_unique; eauto). subst c0.
    assert (SB : s_sub s = submitted (s_cmds s)) by (destruct v_sub0 as [(X & _)|(_ & X)]; [congruence|auto]).
    assert (AB : In a (before (c_id c) (s_sub s))).
    { rewrite SB in *. apply sorted_before; auto; [apply submitted_sorted; auto| | |right; auto].
      - intros x y X Y EX. apply submitted_in in X as (X & _). apply submitted_in in Y as (Y & _). eapply sorted_unique; eauto.
      - apply submitted_in. split; auto. rewrite L. apply submitted_in in F as (_ & F). auto. }
    apply C3 in AB. rewrite B, L in AB. destruct (lst_eqb_spec (c_list c) (c_list c)); [|congruence]. rewrite orb_true_r in AB. cbn in AB. apply memn_in in AB. auto.
  - intros c0 e C0 [H|H] W; [|eauto]. assert (c0 = c) by (eapply sorted_unique; eauto). subst c0. apply meme_in. auto.
Qed.
Lemma inv_effect : forall g strict ls s id s', inv g ls s -> step g strict s (Effect id) = Some s' -> inv g (ls ++ [Effect id]) s' /\ ~ In id (s_ran s).
Proof.
  intros g strict ls s id s' V E. cbn in E. destruct (find _ (s_sub s)) as [c|] eqn:F; [|destruct (s_phase s); discriminate]. apply find_sub in F as (F & <-).
  destruct (sub_in _ _ _ _ V F) as (FC & PH). destruct (memn (c_id c) (s_started s) && negb (memn (c_id c) (s_ran s))) eqn:C; [|destruct (s_phase s); discriminate].
  assert (s' = with_dev s (s_started s) (c_id c :: s_ran s) (s_done s) (s_sig s)) by (destruct (s_phase s); congruence). subst s'. clear E. apply andb_true_iff in C as (C1 & C2). apply memn_in in C1. apply negb_true_iff, memn_not in C2. split; auto.
  assert (CE : calls (ls ++ [Effect (c_id c)]) = calls ls) by (apply calls_other; discriminate).
  pose proof V as V0. destruct V. constructor; unfold with_dev; cbn [s_phase s_free s_cfree s_cpool s_cmds s_copy s_comp s_next s_sub s_started s_ran s_done s_sig s_valid]; rewrite ?CE; auto; try (intros; congruence).
  - intros i [<- |H]; auto.
  - right. auto.
  - intros i. rewrite in_snoc_other by discriminate. auto.
  - intros i. rewrite in_snoc. cbn [In]. rewrite v_tran0. intuition congruence.
  - intros i. rewrite in_snoc_other by discriminate. auto.
Qed.
Lemma inv_finish : forall g strict ls s id s', inv g ls s -> step g strict s (Finish id) = Some s' -> inv g (ls ++ [Finish id]) s'.
Proof.
  intros g strict ls s id s' V E. cbn in E. destruct (find _ (s_sub s)) as [c|] eqn:F; [|destruct (s_phase s); discriminate]. apply find_sub in F as (F & <-).
  destruct (sub_in _ _ _ _ V F) as (FC & PH). destruct (memn (c_id c) (s_ran s) && negb (memn (c_id c) (s_done s))) eqn:C; [|destruct (s_phase s); discriminate].
  set (sg := match c_signal c with Some e => e :: s_sig s | None => s_sig s end) in *.
  assert (s' = with_dev s (s_started s) (s_ran s) (c_id c :: s_done s) sg) by (destruct (s_phase s); congruence). subst s'. clear E. apply andb_true_iff in C as (C1 & C2). apply memn_in in C1. apply negb_true_iff, memn_not in C2.
  assert (CE : calls (ls ++ [Finish (c_id c)]) = calls ls) by (apply calls_other; discriminate).
  assert (SG : forall e, In e sg <-> c_signal c = Some e \/ In e (s_sig s)).
  { intros e. unfold sg. destruct (c_signal c) as [e0|]; cbn; intuition congruence. }
  pose proof V as V0. destruct V. constructor; unfold with_dev; cbn [s_phase s_free s_cfree s_cpool s_cmds s_copy s_comp s_next s_sub s_started s_ran s_done s_sig s_valid]; rewrite ?CE; auto; try (intros; congruence).
  - intros i o H B. destruct (v_pend0 i o H B); [left; right; auto|auto].
  - intros i [<- |H]; auto.
  - intros i. rewrite in_snoc_other by discriminate. auto.
  - intros i. rewrite in_snoc_other by discriminate. auto.
  - intros i. rewrite in_snoc. cbn [In]. rewrite v_tdone0. intuition congruence.
  - intros c0 e C0 S0. rewrite SG. cbn [In]. rewrite (v_sig0 c0 e C0 S0). split.
    + intros [H|H]; auto. left. f_equal. eapply v_inj0; eauto.
    + intros [H|H]; auto. left. assert (c0 = c) by (eapply sorted_unique; eauto). subst. auto.
  - intros i H. apply SG in H as [H|H]; eauto.
  - intros i H N. apply v_cfree0; auto. intros X. apply N. apply SG. auto.
  - intros i H. apply SG in H as [H|H]; eauto.
  - intros a c0 A C0 L I0 B ST. right. eauto.
  - intros c0 e C0 ST W. apply SG. eauto.
Qed.
