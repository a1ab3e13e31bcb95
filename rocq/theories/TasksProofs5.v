(** Every step preserves the invariant, and no step is undefined. *)
From Coq Require Import ZArith List Bool Arith Lia.
From Verif Require Import TasksModel TasksProofs TasksProofs2 TasksProofs3 TasksProofs4.
Import ListNotations.
Open Scope Z_scope.

Definition ch_ok (ch : choice) : Prop := match ch with CLaunch l => launch_ok l | _ => True end.

Definition good (s : st) (r : result) : Prop :=
  r <> Undef /\ forall s', r = Ok s' -> s_bad s' = false -> inv s'.

Lemma good_ok s s' : (s_bad s' = false -> inv s') -> good s (Ok s').
Proof. intros H. split; [discriminate|]. intros x E B. injection E as <-. auto. Qed.

Lemma good_inv s s' : inv s' -> good s (Ok s').
Proof. intros H. apply good_ok. auto. Qed.

Lemma inv_to s t a rest p : inv s -> nth_error (s_thr s) t = Some (FAct a :: rest) ->
  quiet (a_pc a) -> quiet p -> act_ok s (set_pc a p) -> inv (put s t (FAct (set_pc a p) :: rest)).
Proof. intros I HN Q1 Q2 H. exact (inv_move s t a (set_pc a p) rest (s_sem s) I HN eq_refl eq_refl eq_refl eq_refl Q1 Q2 H). Qed.

Lemma launch_pos l : launch_ok l -> 0 < count_of l < 2 ^ 30.
Proof.
  intros (A & B & C & D). split; auto. unfold count_of. apply Z.mul_pos_pos; auto. apply Z.mul_pos_pos; auto.
Qed.

Lemma nodup_snoc {A} (l : list A) x : NoDup (l ++ [x]) -> NoDup l /\ ~ In x l.
Proof.
  intros H. apply NoDup_remove in H. rewrite app_nil_r in H. auto.
Qed.

(** taking the last task of a group that is in the active list *)
Lemma act_rest s g rest : inv s -> s_active s = rest ++ [g] ->
  NoDup rest /\ forall h, In h rest <-> if Nat.eqb h g then ([] : list Z) <> [] else g_wait (s_grp s h) <> [].
Proof.
  intros I E. pose proof (v_nodup _ I) as ND. rewrite E in ND. apply nodup_snoc in ND as (N1 & N2). split; auto.
  intros h. pose proof (v_active _ I h) as AC. rewrite E, in_app_iff in AC. cbn [In] in AC.
  destruct (Nat.eqb_spec h g) as [->|N]; [tauto|]. rewrite <- AC. intuition congruence.
Qed.

Lemma act_same s g w j : inv s -> g_wait (s_grp s g) = w ++ [j] -> w <> [] ->
  NoDup (s_active s) /\ forall h, In h (s_active s) <-> if Nat.eqb h g then w <> [] else g_wait (s_grp s h) <> [].
Proof.
  intros I E W. split; [apply (v_nodup _ I)|]. intros h. rewrite (v_active _ I).
  destruct (Nat.eqb_spec h g) as [->|N]; [|tauto]. rewrite E. split; auto. intros _ X. apply app_eq_nil in X as []. auto.
Qed.

Lemma in_same s g w j : inv s -> g_wait (s_grp s g) = w ++ [j] -> w <> [] -> (g_in (s_grp s g) = true <-> w <> []).
Proof.
  intros I E W. rewrite (v_in _ I), E. split; auto. intros _ X. apply app_eq_nil in X as []. auto.
Qed.

Lemma good_take s t f fs rest ti tc : inv s -> nth_error (s_thr s) t = Some (f :: rest) -> s_active s <> [] ->
  (forall g, exists f', fs g = f' :: rest /\ core f' = core f /\ dec_of f' = Some g /\
     (forall h, w_add h f' = 0) /\ (forall d i, w_pend d i f' = 0) /\
     (forall b, f' = FAct b -> exists h, a_pc b = PDec h /\ a_handle b <> None)) ->
  dec_of f = None -> (forall h, w_add h f = 0) -> (forall d i, w_pend d i f = 0) ->
  good s (take_last s t fs ti tc).
Proof.
  intros I HN NE FS D A P. unfold take_last. destruct (unsnoc (s_active s)) as [[r g]|] eqn:U; [|apply unsnoc_none in U; congruence].
  apply unsnoc_some in U. destruct (FS g) as (f' & -> & C & D' & A' & P' & OKF).
  assert (WN : g_wait (s_grp s g) <> []). { apply (v_active _ I). rewrite U. apply in_or_app. right. left. auto. }
  destruct (unsnoc (g_wait (s_grp s g))) as [[w j]|] eqn:W; [|apply unsnoc_none in W; congruence].
  apply unsnoc_some in W. destruct w as [|z w].
  - destruct (act_rest s g r I U) as (N1 & N2). apply good_inv.
    apply (inv_start s t f f' rest g [] j r false ti tc); auto. split; congruence.
  - assert (X : z :: w <> []) by discriminate. destruct (act_same s g _ j I W X) as (N1 & N2). apply good_inv.
    apply (inv_start s t f f' rest g (z :: w) j (s_active s) (g_in (s_grp s g)) ti tc); auto. apply (in_same s g _ j); auto.
Qed.

Lemma slots_upd s g i x y : nth_error (s_free s) i = Some y ->
  slots g (with_free s i x) = slots g s - b2z (nat_eqb_opt y g) + b2z (nat_eqb_opt x g).
Proof. intros H. unfold slots. cbn [with_free s_free]. rewrite (cnt_upd _ _ x _ _ H). unfold b2z. lia. Qed.

Lemma nth_free s i : length (s_free s) = max_free -> (i < max_free)%nat -> nth_error (s_free s) i = Some (nth i (s_free s) None).
Proof. intros L H. apply nth_error_nth'. rewrite L. auto. Qed.

Lemma upd_length {A} n (x : A) l : length (upd n x l) = length l.
Proof. revert n. induction l as [|y l IH]; intros [|n]; cbn; auto. Qed.

Lemma nth_some_lt (l : list (option nat)) i g : nth i l None = Some g -> (i < length l)%nat.
Proof. intros H. destruct (le_lt_dec (length l) i) as [L|L]; auto. rewrite nth_overflow in H by auto. discriminate. Qed.

Lemma step_work_good s t i p rest : inv s -> nth_error (s_thr s) t = Some (FWork i p :: rest) -> good s (step_work s t i p rest).
Proof.
  intros I HN. destruct p as [| |g]; cbn [step_work].
  - destruct (0 <? s_sem s); apply good_inv; auto.
    apply (inv_frame s t (FWork i WWait) (FWork i WTake) rest (s_sem s - 1)); auto. discriminate.
  - destruct (s_active s) as [|g0 q] eqn:E.
    + apply good_inv. apply (inv_frame s t (FWork i WTake) (FWork i WWait) rest (s_sem s)); auto. discriminate.
    + apply (good_take s t (FWork i WTake) _ rest); auto; [congruence|].
      intros g. exists (FWork i (WDec g)). repeat split; auto. discriminate.
  - apply good_inv. apply (inv_dec s t (FWork i (WDec g)) (FWork i WWait) rest g); auto. discriminate.
Qed.

Lemma step_act_good s t a rest ch : inv s -> nth_error (s_thr s) t = Some (FAct a :: rest) -> ch_ok ch ->
  good s (step_act s t a rest ch).
Proof.
  intros I HN CO. pose proof (v_act _ I a (top_fr _ _ _ _ HN)) as AO. unfold act_ok in AO.
  assert (TO : forall p, quiet (a_pc a) -> quiet p -> act_ok s (set_pc a p) -> good s (Ok (put s t (FAct (set_pc a p) :: rest)))).
  { intros p Q1 Q2 H. apply good_inv. apply inv_to; auto. }
  unfold step_act. destruct (a_pc a) as [|l i|l i g|l|l d base|n|n| | |g|i|i] eqn:PC.
  - (* PRun *)
    destruct ch as [|l| |].
    + apply good_inv. auto.
    + destruct (a_handle a) eqn:HA; apply TO; try exact Logic.I; unfold act_ok; cbn; rewrite HA; split; auto; discriminate.
    + destruct (a_handle a) eqn:HA; [apply TO; try exact Logic.I; unfold act_ok; cbn; rewrite HA; discriminate|].
      apply good_inv, inv_log; auto.
    + destruct (a_handle a) eqn:HA; [apply TO; try exact Logic.I; unfold act_ok; cbn; rewrite HA; discriminate|].
      pose proof (inv_return s t a rest I HN HA PC) as R. destruct (a_task a) as [[[h d] i]|]; apply good_inv; auto.
  - (* PRead *)
    destruct AO as (HA & LO). destruct (Nat.ltb_spec i max_free) as [L|L].
    + destruct (nth i (s_free s) None) as [g|] eqn:E; apply TO; try exact Logic.I; unfold act_ok; cbn; auto.
    + apply good_inv. assert (S0 : tot (w_hold (s_new s)) (s_thr s) + slots (s_new s) s <= 0) by (apply (v_new _ I); lia).
      pose proof (tot_nonneg (w_hold (s_new s)) (s_thr s) (w_hold_nn _)).
      assert (0 <= slots (s_new s) s) by apply cnt_nonneg.
      apply (inv_get s (with_new s) t a rest (s_new s) l); auto; cbn [with_new s_thr s_active s_act s_log s_free s_new s_grp].
      all: try (change (slots (s_new s) (with_new s)) with (slots (s_new s) s)); try lia.
      * rewrite PC; exact Logic.I.
      * apply (v_free _ I).
      * intros h _. change (slots h (with_new s)) with (slots h s). lia.
      * intros h N. apply set_grp_other. auto.
      * right. apply set_grp_same.
  - (* PCas *)
    destruct AO as (HA & LO).
    destruct (nth i (s_free s) None) as [h|] eqn:E; [|apply TO; try exact Logic.I; unfold act_ok; cbn; auto].
    apply good_ok. destruct (Nat.eqb_spec h g) as [->|N]; [intros _|cbn; discriminate].
    assert (L : (i < max_free)%nat) by (rewrite <- (v_free _ I); eapply nth_some_lt; eauto).
    pose proof (nth_free s i (v_free _ I) L) as NF. rewrite E in NF.
    assert (SU : forall h, slots h (with_free s i None) = slots h s - b2z (Nat.eqb g h)).
    { intros h. rewrite (slots_upd s h i None _ NF). cbn. lia. }
    pose proof (v_one _ I g) as O1. pose proof (tot_nonneg (w_hold g) (s_thr s) (w_hold_nn _)).
    assert (P1 : 0 <= slots g (with_free s i None)) by apply cnt_nonneg.
    pose proof (SU g) as SG. rewrite Nat.eqb_refl in SG. cbn [b2z] in SG.
    apply (inv_get s (with_free s i None) t a rest g l); auto; cbn [with_free s_thr s_active s_act s_log s_free s_new s_grp].
    + rewrite PC; exact Logic.I.
    + rewrite upd_length. apply (v_free _ I).
    + destruct (le_lt_dec (s_new s) g) as [X|X]; auto. pose proof (v_new _ I g X). lia.
    + lia.
    + lia.
    + intros h N. rewrite SU. destruct (Nat.eqb_spec g h); [congruence|]. cbn. lia.
  - (* PFill *)
    destruct AO as (HA & LO). destruct (a_handle a) as [g|] eqn:HG; [|congruence].
    pose proof (launch_pos l LO) as LP. pose proof (v_next _ I g) as NX. unfold max_tasks in NX.
    destruct (Z.leb_spec (2 ^ 31) (count_of l)); [lia|]. destruct (Z.ltb_spec (count_of l) (- 2 ^ 31)); [lia|].
    destruct (Z.leb_spec (2 ^ 31) (g_next (s_grp s g) + count_of l)); [lia|]. cbn [orb].
    destruct (Z.ltb_spec 0 (count_of l)); [|lia]. cbn [andb].
    destruct (Z.ltb_spec max_tasks (g_next (s_grp s g) + count_of l)); [split; [discriminate|intros ? X; discriminate X]|].
    apply good_inv. pose proof (inv_fill s t a rest g l I HN HG PC LO ltac:(lia)) as R. rewrite HG in R. exact R.
  - (* PPush *)
    destruct AO as (LO & FD & g & HG & _). rewrite HG. apply good_inv.
    pose proof (inv_push s t a rest g l d base _ I HN HG PC eq_refl) as R.
    destruct (g_in (s_grp s g)); exact R.
  - (* PAdd *)
    destruct AO as (HA & N0). destruct (a_handle a) as [g|] eqn:HG; [|congruence].
    apply good_inv. apply inv_add; auto.
  - (* PPost *)
    destruct (0 <? n).
    + apply good_inv. apply (inv_move s t a (set_pc a (PPost (n - 1))) rest (s_sem s + 1)); auto; rewrite ?PC; exact Logic.I || exact AO.
    + apply TO; try exact Logic.I.
  - (* PSync *)
    destruct (a_handle a) as [g|] eqn:HG; [|congruence]. destruct (Z.ltb_spec 0 (g_unf (s_grp s g))) as [U|U].
    + apply TO; try exact Logic.I. unfold act_ok. cbn. congruence.
    + destruct (sync_empty s t a rest g I HN HG PC U) as (_ & _ & ->). apply good_inv.
      apply inv_log. apply inv_done; auto.
  - (* PHelp *)
    destruct (a_handle a) as [g|] eqn:HG; [|congruence].
    assert (OKF : forall b h, FAct (set_pc a (PDec h)) = FAct b -> exists h, a_pc b = PDec h /\ a_handle b <> None).
    { intros b h X. injection X as <-. exists h. cbn. split; auto. congruence. }
    assert (DA : dec_of (FAct a) = None) by (cbn; rewrite PC; auto).
    assert (AA : forall h, w_add h (FAct a) = 0) by (intros h; apply quiet_add; rewrite PC; exact Logic.I).
    assert (PA : forall d i, w_pend d i (FAct a) = 0) by (intros d i; apply quiet_pend; rewrite PC; exact Logic.I).
    destruct (unsnoc (g_wait (s_grp s g))) as [[w j]|] eqn:W.
    + apply unsnoc_some in W. destruct w as [|z w].
      * destruct (erase_in g (s_active s)) as (r & ER). { apply (v_active _ I). rewrite W. discriminate. }
        rewrite ER. apply erase_some in ER as (p & q & E1 & -> & E2). apply good_inv.
        pose proof (v_nodup _ I) as ND. rewrite E1 in ND. apply NoDup_remove in ND as (ND1 & ND2).
        apply (inv_start s t (FAct a) (FAct (set_pc a (PDec g))) rest g [] j (p ++ q) false 0 1); auto.
        -- intros b X. eauto.
        -- intros h. pose proof (v_active _ I h) as AC. rewrite E1, in_app_iff in AC. cbn [In] in AC.
           destruct (Nat.eqb_spec h g) as [->|N].
           ++ split; [contradiction|congruence].
           ++ rewrite <- AC, in_app_iff. intuition congruence.
        -- split; congruence.
      * assert (X : z :: w <> []) by discriminate. destruct (act_same s g _ j I W X) as (N1 & N2). apply good_inv.
        apply (inv_start s t (FAct a) (FAct (set_pc a (PDec g))) rest g (z :: w) j (s_active s) (g_in (s_grp s g)) 0 1); auto.
        -- intros b Y. eauto.
        -- apply (in_same s g _ j); auto.
    + destruct (s_active s) as [|g0 q] eqn:E.
      * apply TO; try exact Logic.I. unfold act_ok. cbn. congruence.
      * apply (good_take s t (FAct a) _ rest); auto; [congruence|].
        intros h. exists (FAct (set_pc a (PDec h))). repeat split; auto. intros b X. eauto.
  - (* PDec *)
    apply good_inv. apply (inv_dec s t (FAct a) (FAct (set_pc a PSync)) rest g); auto.
    + cbn. rewrite PC. auto.
    + intros h. cbn. rewrite PC. auto.
    + intros d i. cbn. rewrite PC. auto.
    + intros b X. injection X as <-. cbn. auto.
  - (* PPut *)
    destruct AO as (g & HG & W0 & D0). destruct (Nat.ltb_spec i max_free) as [L|L].
    + destruct (nth i (s_free s) None) as [h|] eqn:E; apply TO; try exact Logic.I; unfold act_ok; cbn; exists g; auto.
    + apply good_inv. destruct (holder s t a rest g I HN HG) as (H1 & S1 & _).
      apply (inv_put s s t a rest g); auto; try lia.
      * rewrite PC; exact Logic.I.
      * apply (v_free _ I).
  - (* PPutCas *)
    destruct AO as (g & HG & W0 & D0).
    destruct (nth i (s_free s) None) as [h|] eqn:E.
    + apply TO; try exact Logic.I. unfold act_ok. cbn. exists g. auto.
    + apply good_inv. rewrite HG. destruct (holder s t a rest g I HN HG) as (H1 & S1 & _).
      destruct (le_lt_dec max_free i) as [L|L].
      { (* the slot does not exist *)
        assert (UP : upd i (Some g) (s_free s) = s_free s).
        { assert (X : forall (A : Type) (l : list A) n x, (length l <= n)%nat -> upd n x l = l).
          { induction l as [|y l IH]; intros [|n] x Hn; cbn in *; auto; [lia|]. rewrite IH; auto. lia. }
          apply X. rewrite (v_free _ I). auto. }
        apply (inv_put s (with_free s i (Some g)) t a rest g); auto; unfold slots; cbn [with_free s_free]; rewrite ?UP; auto.
        - rewrite PC; exact Logic.I.
        - apply (v_free _ I).
        - unfold slots in S1. lia.
        - intros h _. lia. }
      pose proof (nth_free s i (v_free _ I) L) as NF. rewrite E in NF.
      apply (inv_put s (with_free s i (Some g)) t a rest g); auto.
      * rewrite PC; exact Logic.I.
      * cbn. rewrite upd_length. apply (v_free _ I).
      * rewrite (slots_upd s g i (Some g) _ NF). cbn. rewrite Nat.eqb_refl. cbn. lia.
      * intros h N. rewrite (slots_upd s h i (Some g) _ NF). cbn. destruct (Nat.eqb_spec g h); [congruence|]. cbn. lia.
Qed.

Lemma step_good s t ch : inv s -> ch_ok ch -> good s (step s t ch).
Proof.
  intros I CO. unfold step. destruct (nth_error (s_thr s) t) as [[|[a|i p] rest]|] eqn:HN.
  - destruct ch; apply good_inv; auto. apply inv_call; auto.
  - apply step_act_good; auto.
  - apply step_work_good; auto.
  - apply good_inv. auto.
Qed.

Lemma step_bad s t ch s' : step s t ch = Ok s' -> s_bad s = true -> s_bad s' = true.
Proof.
  intros H B. unfold step, step_act, step_work, take_last in H.
  repeat match type of H with
         | context [match ?x with _ => _ end] => destruct x eqn:?
         end; try discriminate; injection H as <-; cbn; auto.
Qed.

Lemma run_bad sched s s' : run sched s = Ok s' -> s_bad s = true -> s_bad s' = true.
Proof.
  revert s. induction sched as [|[t ch] r IH]; cbn; intros s H B; [injection H as <-; auto|].
  destruct (step s t ch) as [s1| |] eqn:E; try discriminate. apply (IH s1); auto. eapply step_bad; eauto.
Qed.

Lemma run_inv sched s s' : inv s -> Forall (fun p => ch_ok (snd p)) sched -> run sched s = Ok s' -> s_bad s' = false -> inv s'.
Proof.
  revert s. induction sched as [|[t ch] r IH]; cbn; intros s I F H B; [injection H as <-; auto|].
  inversion F as [|? ? F1 F2]; subst. destruct (step s t ch) as [s1| |] eqn:E; try discriminate.
  apply (IH s1); auto. destruct (step_good s t ch I F1) as (_ & G). apply G; auto.
  destruct (s_bad s1) eqn:B1; auto. rewrite (run_bad _ _ _ H B1) in B. discriminate.
Qed.

Lemma thr_init_fr w h f : fr (s_thr (init w h)) f -> exists i, f = FWork i WWait.
Proof.
  intros (t & fs & H & HF). apply nth_error_In in H. cbn in H. apply in_app_or in H as [H|H].
  - apply in_map_iff in H as (i & <- & _). destruct HF as [<-|[]]. eauto.
  - apply repeat_spec in H. subst. contradiction.
Qed.

Lemma tot_init w h v : (forall i, v (FWork i WWait) = 0) -> tot v (s_thr (init w h)) = 0.
Proof.
  intros H. cbn.
  assert (X : forall l, (forall fs, In fs l -> fs = [] \/ exists i, fs = [FWork i WWait]) -> tot v l = 0).
  { induction l as [|fs l IH]; intros G; cbn; auto. rewrite IH by (intros; apply G; right; auto).
    destruct (G fs (or_introl eq_refl)) as [->|(i & ->)]; cbn; rewrite ?H; lia. }
  apply X. intros fs G. apply in_app_or in G as [G|G].
  - apply in_map_iff in G as (i & <- & _). eauto.
  - apply repeat_spec in G. auto.
Qed.

Lemma inv_init w h : inv (init w h).
Proof.
  assert (SL : forall g, slots g (init w h) = 0) by (intros g; reflexivity).
  assert (TZ : forall v, (forall i, v (FWork i WWait) = 0) -> tot v (s_thr (init w h)) = 0) by (intros; apply tot_init; auto).
  constructor; intros; rewrite ?SL in *.
  - rewrite TZ by auto. lia.
  - rewrite TZ by auto. lia.
  - rewrite !TZ by auto. reflexivity.
  - rewrite TZ in H by auto. cbn in H. lia.
  - constructor.
  - cbn. tauto.
  - cbn. split; [discriminate|congruence].
  - contradiction.
  - cbn. unfold max_tasks. lia.
  - apply thr_init_fr in H as (k & ->). discriminate.
  - apply thr_init_fr in H as (k & X). discriminate.
  - apply nth_error_In in H. cbn in H. apply in_app_or in H as [G|G].
    + apply in_map_iff in G as (i & <- & _). cbn. auto.
    + apply repeat_spec in G. subst. exact Logic.I.
  - rewrite TZ by auto. lia.
  - rewrite TZ by auto. lia.
  - rewrite TZ by auto. reflexivity.
  - rewrite TZ by auto. reflexivity.
  - contradiction.
  - cbn. lia.
  - reflexivity.
Qed.
