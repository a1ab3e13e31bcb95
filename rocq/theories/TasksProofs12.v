(** How many tasks a task group has room for. *)
From Coq Require Import ZArith List Bool Arith Lia.
From Verif Require Import TasksModel TasksSpec TasksProofs TasksProofs2 TasksProofs3 TasksProofs4 TasksProofs5 TasksProofs6 TasksProofs7 TasksProofs8 TasksProofs9 TasksProofs11.
Import ListNotations.
Open Scope Z_scope.

Definition putting (a : act) : Prop := match a_pc a with PPut _ | PPutCas _ => True | _ => False end.
Definition counted (s : st) (a : act) : Prop :=
  match a_handle a with
  | Some g => g_next (s_grp s g) = pending (a_id a) (s_log s) /\ (putting a -> g_next (s_grp s g) = 0)
  | None => pending (a_id a) (s_log s) = 0
  end.
Definition counts (s : st) : Prop :=
  (forall a, fr (s_thr s) (FAct a) -> counted s a) /\
  (forall g, (forall a, fr (s_thr s) (FAct a) -> a_handle a <> Some g) -> g_next (s_grp s g) = 0) /\
  (forall x, (s_act s <= x)%nat -> pending x (s_log s) = 0).

Lemma others_upd thr t old new rest f : nth_error thr t = Some (old ++ rest) -> others thr t rest f -> fr (upd t (new ++ rest) thr) f.
Proof.
  intros E [I0|(u & fs & N & E' & I0)].
  - exists t, (new ++ rest). split; [eapply nth_error_upd_same; eauto|apply in_or_app; auto].
  - exists u, fs. split; [rewrite nth_error_upd_other; auto|auto].
Qed.
Lemma fr_cases thr t old rest f : nth_error thr t = Some (old ++ rest) -> fr thr f -> In f old \/ others thr t rest f.
Proof.
  intros E (u & fs & E' & I0). destruct (Nat.eq_dec u t) as [->|N].
  - rewrite E in E'. injection E' as <-. apply in_app_or in I0 as [I0|I0]; auto. right. left. auto.
  - right. right. exists u, fs. auto.
Qed.

(** Steps that change neither the number of tasks of a group nor what is pending *)
Lemma counts_quiet s s' t old new rest : counts s -> nth_error (s_thr s) t = Some (old ++ rest) -> s_thr s' = upd t (new ++ rest) (s_thr s) ->
  (forall g, g_next (s_grp s' g) = g_next (s_grp s g)) -> (forall x, pending x (s_log s') = pending x (s_log s)) -> (s_act s <= s_act s')%nat ->
  (forall b, In (FAct b) new -> counted s' b) ->
  (forall a g, In (FAct a) old -> a_handle a = Some g -> (exists b, In (FAct b) new /\ a_handle b = Some g) \/ g_next (s_grp s g) = 0) -> counts s'.
Proof.
  intros (J1 & J2 & J3) HN T G P A N H. split; [|split].
  - intros b F. rewrite T in F. apply (fr_upd _ t old rest new) in F as [F|F]; auto. apply (others_fr _ t old rest _ HN) in F. specialize (J1 _ F).
    unfold counted in *. destruct (a_handle b); rewrite ?G, ?P; auto.
  - intros g NH. rewrite G. destruct (existsb (fun f => match f with FAct a => nat_eqb_opt (a_handle a) g | _ => false end) old) eqn:E.
    + apply existsb_exists in E as ([a|] & I0 & E); [|discriminate]. apply nat_eqb_opt_some in E. destruct (H a g I0 E) as [(b & IB & HB)|Z0]; auto.
      exfalso. apply (NH b); auto. rewrite T. eapply fr_upd_new; eauto. apply in_or_app. auto.
    + apply J2. intros a F HA. apply (fr_cases _ t old rest) in F as [F|F]; auto.
      * assert (X : existsb (fun f => match f with FAct a => nat_eqb_opt (a_handle a) g | _ => false end) old = true) by (apply existsb_exists; exists (FAct a); split; auto; now apply nat_eqb_opt_some). congruence.
      * apply (NH a); auto. rewrite T. eapply others_upd; eauto.
  - intros x L. rewrite P. apply J3. lia.
Qed.

(** Steps of the holder of a group that change what is pending and the number of tasks alike *)
Lemma counts_own s s' t a a' rest g : inv s -> counts s -> nth_error (s_thr s) t = Some (FAct a :: rest) -> a_handle a = Some g ->
  s_thr s' = upd t (FAct a' :: rest) (s_thr s) -> (forall h, h <> g -> g_next (s_grp s' h) = g_next (s_grp s h)) ->
  (forall x, x <> a_id a -> pending x (s_log s') = pending x (s_log s)) -> s_act s' = s_act s -> a_handle a' = Some g -> counted s' a' -> counts s'.
Proof.
  intros I0 (J1 & J2 & J3) HN HG T G P A HA' C. destruct (holder s t a rest g I0 HN HG) as (_ & _ & _ & OT & _).
  assert (IDS : forall b, others (s_thr s) t rest (FAct b) -> a_id b <> a_id a).
  { intros b O E. pose proof (others_le (w_id (a_id a)) _ t [FAct a] rest _ (w_id_nn _) HN O) as Q. cbn [ws w_id] in Q. rewrite E, Nat.eqb_refl in Q.
    pose proof (v_id _ I0 (a_id a)). cbn [b2z] in Q. lia. }
  split; [|split].
  - intros b F. rewrite T in F. apply (fr_upd _ t [FAct a] rest [FAct a']) in F as [[E|[]]|F]; [injection E as <-; auto| |auto].
    pose proof (OT _ F) as NH. pose proof (IDS _ F) as NI. apply (others_fr _ t [FAct a] rest _ HN) in F. specialize (J1 _ F). unfold counted in *.
    destruct (a_handle b) as [h|]; [|rewrite P; auto]. rewrite G, P by congruence. auto.
  - intros h NH. assert (h <> g). { intros ->. apply (NH a'); auto. rewrite T. eapply fr_upd_new; eauto. left. auto. }
    rewrite G by auto. apply J2. intros b F HB. apply (fr_cases _ t [FAct a] rest) in F as [[E|[]]|F]; auto; [congruence|].
    apply (NH b); auto. rewrite T. exact (others_upd _ t [FAct a] [FAct a'] rest _ HN F).
  - intros x L. rewrite A in L. rewrite P; [auto|]. intros ->. pose proof (v_idnew _ I0 _ L) as Z0.
    pose proof (tot_fr (w_id (a_id a)) _ (FAct a) (w_id_nn _) (top_fr _ _ _ _ HN)) as Q. cbn [w_id] in Q. rewrite Nat.eqb_refl in Q. cbn [b2z] in Q. lia.
Qed.

Lemma unheld_zero s g : inv s -> counts s -> tot (w_hold g) (s_thr s) <= 0 -> g_next (s_grp s g) = 0.
Proof.
  intros I0 (_ & J2 & _) T. apply J2. intros a F H. pose proof (tot_fr (w_hold g) _ _ (w_hold_nn _) F) as Q. rewrite (hold_some a g H) in Q. lia.
Qed.

Lemma counts_start s s0 t old new rest g j ti tc : counts s -> nth_error (s_thr s) t = Some (old ++ rest) ->
  s_thr s0 = s_thr s -> s_log s0 = s_log s -> s_act s0 = s_act s -> (forall h, g_next (s_grp s0 h) = g_next (s_grp s h)) ->
  (forall b, In (FAct b) new -> counted s b) ->
  (forall a h, In (FAct a) old -> a_handle a = Some h -> (exists b, In (FAct b) new /\ a_handle b = Some h) \/ g_next (s_grp s h) = 0) ->
  counts (start s0 t (new ++ rest) g j ti tc).
Proof.
  intros C HN T L A G N H. pose proof C as (_ & _ & J3). unfold start.
  set (n := FAct (new_act (s_act s0) (Some (g, i_data (g_info (s_grp s0 g) j), i_index (g_info (s_grp s0 g) j))))).
  apply (counts_quiet s _ t old (n :: new) rest); auto; cbn [with_act with_log put s_thr s_grp s_log s_act].
  - rewrite T. auto.
  - intros x. cbn [pending]. rewrite L. auto.
  - lia.
  - intros b [E|E].
    + unfold n in E. injection E as <-. unfold counted. cbn [new_act a_handle a_id with_act with_log put s_log pending]. rewrite L, A. apply J3. lia.
    + specialize (N _ E). unfold counted in *. cbn [with_act with_log put s_log s_grp pending]. rewrite L. destruct (a_handle b); rewrite ?G; auto.
  - intros a h IA HA. destruct (H a h IA HA) as [(b & IB & HB)|Z0]; auto. left. exists b. split; auto. right. auto.
Qed.
Lemma take_counts s t old fs rest ti tc s' : counts s -> nth_error (s_thr s) t = Some (old ++ rest) ->
  (forall g, exists new, fs g = new ++ rest /\ (forall b, In (FAct b) new -> counted s b) /\
    (forall a h, In (FAct a) old -> a_handle a = Some h -> (exists b, In (FAct b) new /\ a_handle b = Some h) \/ g_next (s_grp s h) = 0)) ->
  take_last s t fs ti tc = Ok s' -> counts s'.
Proof.
  intros C HN F E. unfold take_last in E. destruct (unsnoc (s_active s)) as [(r & g)|]; [|discriminate]. destruct (unsnoc (g_wait (s_grp s g))) as [(w & j)|]; [|discriminate].
  destruct (F g) as (new & FE & N1 & N2). rewrite FE in E.
  assert (GN : forall i h, g_next (set_grp s g (set_wait (s_grp s g) w i) h) = g_next (s_grp s h)).
  { intros i h. unfold set_grp. destruct (Nat.eqb_spec h g) as [->|]; auto. }
  destruct w; injection E as <-; apply (counts_start s _ t old new rest); auto; cbn [with_active with_grp s_grp]; auto.
Qed.

Lemma step_counts s t ch s' : inv s -> counts s -> ch_ok ch -> step s t ch = Ok s' -> s_bad s' = false -> counts s'.
Proof.
  intros I0 C CO E B. unfold step in E. destruct (nth_error (s_thr s) t) as [[|[a|i p] rest]|] eqn:HN.
  - destruct ch; injection E as <-; auto. pose proof C as (_ & _ & J3).
    apply (counts_quiet s _ t [] [FAct (new_act (s_act s) None)] []); auto; cbn [with_act put s_act s_thr s_log s_grp]; auto.
    + intros b [X|[]]. injection X as <-. unfold counted. cbn. apply J3. lia.
    + intros a g [].
  - (* an activation *)
    pose proof C as (J1 & J2 & J3). pose proof (J1 a (top_fr _ _ _ _ HN)) as CA.
    pose proof (v_act _ I0 a (top_fr _ _ _ _ HN)) as AO. unfold act_ok in AO.
    assert (HN1 : nth_error (s_thr s) t = Some ([FAct a] ++ rest)) by exact HN.
    assert (TO : forall s0 p, s_thr s0 = upd t (FAct (set_pc a p) :: rest) (s_thr s) -> s_log s0 = s_log s -> s_act s0 = s_act s ->
      (forall g, g_next (s_grp s0 g) = g_next (s_grp s g)) -> (putting (set_pc a p) -> putting a) -> counts s0).
    { intros s0 p T L A G PU. apply (counts_quiet s s0 t [FAct a] [FAct (set_pc a p)] rest); auto.
      - intros x. now rewrite L.
      - lia.
      - intros b [X|[]]. injection X as <-. unfold counted in *. cbn [set_pc a_handle a_id]. rewrite L. destruct (a_handle a); [|auto]. rewrite G. destruct CA. auto.
      - intros b g [X|[]] HB. injection X as <-. left. exists (set_pc a p). split; [left; auto|auto]. }
    assert (GS : forall g x, g_next x = g_next (s_grp s g) -> forall h, g_next (set_grp s g x h) = g_next (s_grp s h)).
    { intros g x X h. unfold set_grp. destruct (Nat.eqb_spec h g) as [->|]; auto. }
    unfold step_act in E. destruct (a_pc a) as [|l i|l i g|l|l d base|n|n| | |g|i|i] eqn:PC.
    + (* PRun *)
      destruct ch as [|l| |].
      * injection E as <-. auto.
      * destruct (a_handle a) eqn:HA; injection E as <-; eapply TO; cbn; auto; try (now intros []).
      * destruct (a_handle a) as [g|] eqn:HA; injection E as <-; [eapply TO; cbn; auto; try (now intros [])|].
        unfold counted in CA. rewrite HA in CA.
        assert (PE : forall x, pending x (EvSync (a_id a) :: s_log s) = pending x (s_log s)).
        { intros x. cbn [pending]. destruct (Nat.eqb_spec (a_id a) x) as [<-|]; auto. }
        split; [|split]; cbn [with_log s_thr s_grp s_log s_act].
        -- intros b F. specialize (J1 b F). unfold counted in *. cbn [with_log s_grp s_log]. destruct (a_handle b); rewrite PE; auto.
        -- exact J2.
        -- intros x L. rewrite PE. auto.
      * destruct (a_handle a) as [g|] eqn:HA; [injection E as <-; eapply TO; cbn; auto; try (now intros [])|].
        assert (R : forall s0, s_thr s0 = upd t rest (s_thr s) -> (forall x, pending x (s_log s0) = pending x (s_log s)) -> s_act s0 = s_act s -> s_grp s0 = s_grp s -> counts s0).
        { intros s0 T L A G. apply (counts_quiet s s0 t [FAct a] [] rest); auto.
          - intros g. now rewrite G.
          - lia.
          - intros b [].
          - intros b g [X|[]] HB. injection X as <-. congruence. }
        destruct (a_task a) as [((h & d) & i)|]; injection E as <-; apply R; auto.
    + (* PRead *)
      destruct AO as (HA & LO). destruct (Nat.ltb_spec i max_free) as [L|L].
      * destruct (nth i (s_free s) None) as [g|]; injection E as <-; eapply TO; cbn; auto; try (now intros []).
      * injection E as <-. unfold counted in CA. rewrite HA in CA.
        assert (Z0 : g_next (s_grp s (s_new s)) = 0).
        { apply unheld_zero; auto. pose proof (v_new _ I0 (s_new s) (le_n _)). assert (0 <= slots (s_new s) s) by apply cnt_nonneg. lia. }
        apply (counts_quiet s _ t [FAct a] [FAct (set_handle a (Some (s_new s)) (PFill l))] rest); auto; cbn [put with_new s_thr s_grp s_log s_act].
        -- apply GS. auto.
        -- intros b [X|[]]. injection X as <-. unfold counted. cbn [set_handle a_handle a_id put with_new s_grp s_log]. rewrite GS by auto. split; [congruence|intros []].
        -- intros b g [X|[]] HB. injection X as <-. congruence.
    + (* PCas *)
      destruct AO as (HA & LO). destruct (nth i (s_free s) None) as [h|] eqn:EF; [|injection E as <-; eapply TO; cbn; auto; try (now intros [])].
      destruct (Nat.eqb_spec h g) as [->|N]; injection E as <-; [|cbn in B; discriminate]. unfold counted in CA. rewrite HA in CA.
      assert (L : (i < max_free)%nat) by (rewrite <- (v_free _ I0); eapply nth_some_lt; eauto).
      pose proof (nth_free s i (v_free _ I0) L) as NF. rewrite EF in NF.
      assert (Z0 : g_next (s_grp s g) = 0).
      { apply unheld_zero; auto. pose proof (v_one _ I0 g). assert (0 <= slots g (with_free s i None)) by apply cnt_nonneg.
        pose proof (slots_upd s g i None _ NF) as SU. cbn [nat_eqb_opt] in SU. rewrite Nat.eqb_refl in SU. cbn [b2z] in SU. lia. }
      apply (counts_quiet s _ t [FAct a] [FAct (set_handle a (Some g) (PFill l))] rest); auto; cbn [put with_free s_thr s_grp s_log s_act]; auto.
      * intros b [X|[]]. injection X as <-. unfold counted. cbn [set_handle a_handle a_id put with_free s_grp s_log]. split; [congruence|intros []].
      * intros b h [X|[]] HB. injection X as <-. congruence.
    + (* PFill *)
      destruct (a_handle a) as [g|] eqn:HG; [|discriminate]. unfold counted in CA. rewrite HG in CA. destruct CA as (CA & _).
      destruct (_ || _) in E; [discriminate|]. destruct (_ && _) in E; [discriminate|]. injection E as <-.
      eapply (counts_own s _ t a _ rest g I0 C HN HG); [reflexivity|..]; cbn [with_log put with_grp s_thr s_grp s_log s_act]; auto.
      * intros h N. rewrite set_grp_other; auto.
      * intros x N. cbn [pending fst]. destruct (Nat.eqb_spec (a_id a) x); [congruence|]. lia.
      * unfold counted. cbn [a_handle a_id with_log put with_grp s_grp s_log pending fst]. rewrite set_grp_same. cbn [fill g_next]. rewrite Nat.eqb_refl.
        split; [|intros []]. rewrite CA. unfold count_of. lia.
    + (* PPush *)
      destruct (a_handle a) as [g|] eqn:HG; [|discriminate]. injection E as <-.
      destruct (g_in (s_grp s g)); eapply TO; cbn [put with_grp with_active s_thr s_grp s_log s_act]; auto; try (now intros []).
    + (* PAdd *)
      destruct (a_handle a) as [g|] eqn:HG; [|discriminate]. injection E as <-. eapply TO; cbn [put with_grp s_thr s_grp s_log s_act]; auto; try (now intros []).
    + (* PPost *)
      destruct (0 <? n); injection E as <-; eapply TO; cbn; auto; try (now intros []).
    + (* PSync *)
      destruct (a_handle a) as [g|] eqn:HG; [|discriminate]. destruct (0 <? g_unf (s_grp s g)); [injection E as <-; eapply TO; cbn; auto; try (now intros [])|].
      destruct (g_in (s_grp s g)); [discriminate|]. injection E as <-.
      eapply (counts_own s _ t a _ rest g I0 C HN HG); [reflexivity|..]; cbn [with_log put with_grp s_thr s_grp s_log s_act]; auto.
      * intros h N. rewrite set_grp_other; auto.
      * intros x N. cbn [pending]. destruct (Nat.eqb_spec (a_id a) x); [congruence|]. auto.
      * unfold counted. cbn [set_pc a_handle a_id with_log put with_grp s_grp s_log pending]. rewrite HG. rewrite set_grp_same. cbn [reset g_next]. rewrite Nat.eqb_refl. auto.
    + (* PHelp *)
      destruct (a_handle a) as [g|] eqn:HG; [|discriminate].
      assert (CN : forall h b, In (FAct b) [FAct (set_pc a (PDec h))] -> counted s b).
      { intros h b [X|[]]. injection X as <-. unfold counted in *. cbn [set_pc a_handle a_id]. rewrite HG in *. destruct CA. split; auto. }
      assert (CO' : forall h b g0, In (FAct b) [FAct a] -> a_handle b = Some g0 -> (exists c, In (FAct c) [FAct (set_pc a (PDec h))] /\ a_handle c = Some g0) \/ g_next (s_grp s g0) = 0).
      { intros h b g0 [X|[]] HB. injection X as <-. left. exists (set_pc a (PDec h)). split; [left; auto|auto]. }
      destruct (unsnoc (g_wait (s_grp s g))) as [(w & j)|].
      * destruct w; [destruct (erase g (s_active s)); [|discriminate]|]; injection E as <-;
          apply (counts_start s _ t [FAct a] [FAct (set_pc a (PDec g))] rest); auto; cbn [with_active with_grp s_grp]; auto; solve [apply CN|apply CO'|apply GS; auto].
      * destruct (s_active s) as [|g0 q] eqn:EA; [injection E as <-; eapply TO; cbn; auto; try (now intros [])|].
        eapply (take_counts s t [FAct a]); [auto|exact HN1| |exact E]. intros h. exists [FAct (set_pc a (PDec h))]. split; auto. split; [apply CN|apply CO'].
    + (* PDec *)
      injection E as <-. eapply TO; cbn [put with_grp s_thr s_grp s_log s_act]; auto; try (now intros []).
    + (* PPut *)
      destruct AO as (g & HG & _). destruct (i <? max_free)%nat.
      * destruct (nth i (s_free s) None); injection E as <-; eapply TO; cbn; auto; try (now intros []); unfold putting; rewrite PC; auto.
      * injection E as <-. unfold counted in CA. rewrite HG in CA. destruct CA as (CA & CP). unfold putting in CP. rewrite PC in CP. specialize (CP Logic.I).
        apply (counts_quiet s _ t [FAct a] [FAct (set_handle a None PRun)] rest); auto; cbn [put s_thr s_grp s_log s_act]; auto.
        -- intros b [X|[]]. injection X as <-. unfold counted. cbn. congruence.
        -- intros b h [X|[]] HB. injection X as <-. right. congruence.
    + (* PPutCas *)
      destruct AO as (g & HG & _). destruct (nth i (s_free s) None); injection E as <-.
      * eapply TO; cbn; auto; try (now intros []). unfold putting. rewrite PC. auto.
      * unfold counted in CA. rewrite HG in CA. destruct CA as (CA & CP). unfold putting in CP. rewrite PC in CP. specialize (CP Logic.I).
        apply (counts_quiet s _ t [FAct a] [FAct (set_handle a None PRun)] rest); auto; cbn [put with_free s_thr s_grp s_log s_act]; auto.
        -- intros b [X|[]]. injection X as <-. unfold counted. cbn. congruence.
        -- intros b h [X|[]] HB. injection X as <-. right. congruence.
  - (* a worker *)
    assert (HN1 : nth_error (s_thr s) t = Some ([FWork i p] ++ rest)) by exact HN.
    assert (TO : forall s0 q, s_thr s0 = upd t (FWork i q :: rest) (s_thr s) -> s_log s0 = s_log s -> s_act s0 = s_act s ->
      (forall g, g_next (s_grp s0 g) = g_next (s_grp s g)) -> counts s0).
    { intros s0 q T L A G. apply (counts_quiet s s0 t [FWork i p] [FWork i q] rest); auto.
      - intros x. now rewrite L.
      - lia.
      - intros b [X|[]]. discriminate.
      - intros b g [X|[]]. discriminate. }
    destruct p as [| |g]; cbn [step_work] in E.
    + destruct (0 <? s_sem s); injection E as <-; auto. eapply TO; cbn; auto.
    + destruct (s_active s); [injection E as <-; eapply TO; cbn; auto|]. eapply (take_counts s t [FWork i WTake]); [auto|exact HN1| |exact E].
      intros g. exists [FWork i (WDec g)]. split; auto. split; [intros b [X|[]]; discriminate|intros b h [X|[]]; discriminate].
    + injection E as <-. eapply TO; cbn [put with_grp s_thr s_grp s_log s_act]; auto.
      intros h. unfold set_grp. destruct (Nat.eqb_spec h g) as [->|]; auto.
  - injection E as <-. auto.
Qed.

Lemma counts_init w h : counts (init w h).
Proof.
  split; [|split]; auto. intros a F. apply thr_init_fr in F as (i & X). discriminate.
Qed.
Lemma run_counts sched s s' : inv s -> counts s -> Forall (fun p => ch_ok (snd p)) sched -> run sched s = Ok s' -> s_bad s' = false -> counts s'.
Proof.
  revert s. induction sched as [|[t ch] r IH]; cbn; intros s I0 C F H B; [injection H as <-; auto|].
  inversion F as [|? ? F1 F2]; subst. destruct (step s t ch) as [s1| |] eqn:E; try discriminate.
  assert (B1 : s_bad s1 = false). { destruct (s_bad s1) eqn:B1; auto. rewrite (run_bad _ _ _ H B1) in B. discriminate. }
  apply (IH s1); auto.
  - destruct (step_good s t ch I0 F1) as (_ & G). apply G; auto.
  - eapply step_counts; eauto.
Qed.

Lemma exit_split sched : forall s, run sched s = Exit -> exists p1 t ch p2 s1, sched = p1 ++ (t, ch) :: p2 /\ run p1 s = Ok s1 /\ step s1 t ch = Exit.
Proof.
  induction sched as [|(t, ch) r IH]; intros s H; [discriminate|]. cbn in H. destruct (step s t ch) as [s1| |] eqn:E; [|discriminate|].
  - destruct (IH s1 H) as (p1 & t1 & c1 & p2 & s2 & -> & R & X). exists ((t, ch) :: p1), t1, c1, p2, s2. split; auto. cbn. rewrite E. auto.
  - exists [], t, ch, r, s. auto.
Qed.
Lemma step_exit s t ch : step s t ch = Exit -> exists a rest g l, nth_error (s_thr s) t = Some (FAct a :: rest) /\ a_handle a = Some g /\ a_pc a = PFill l /\ max_tasks < g_next (s_grp s g) + count_of l.
Proof.
  intros E. unfold step in E. destruct (nth_error (s_thr s) t) as [[|[a|i p] rest]|] eqn:HN.
  - destruct ch; discriminate.
  - unfold step_act in E. destruct (a_pc a) as [|l i|l i g|l|l d base|n|n| | |g|i|i] eqn:PC.
    4: { destruct (a_handle a) as [g|] eqn:HG; [|discriminate]. destruct (_ || _) in E; [discriminate|].
         destruct (0 <? count_of l); cbn [andb] in E; [|discriminate]. destruct (Z.ltb_spec max_tasks (g_next (s_grp s g) + count_of l)); [|discriminate].
         exists a, rest, g, l. auto. }
    all: unfold take_last in E; repeat match type of E with context [match ?x with _ => _ end] => destruct x eqn:? end; discriminate.
  - unfold step_work, take_last in E. repeat match type of E with context [match ?x with _ => _ end] => destruct x eqn:? end; discriminate.
  - discriminate.
Qed.

Lemma exit_only w h sched : schedule_ok sched -> (forall p1 p2 s1, sched = p1 ++ p2 -> run p1 (init w h) = Ok s1 -> s_bad s1 = false) ->
  run sched (init w h) = Exit ->
  exists p1 t ch p2 s a l, sched = p1 ++ (t, ch) :: p2 /\ run p1 (init w h) = Ok s /\ launching s t a l /\
    128 * 2 ^ 14 < pending a (s_log s) + l_c0 l * l_c1 l * l_c2 l.
Proof.
  intros SO NB E. destruct (exit_split _ _ E) as (p1 & t & ch & p2 & s & -> & R & X). destruct (step_exit _ _ _ X) as (a & rest & g & l & HN & HG & PC & M).
  assert (SO1 : schedule_ok p1) by (intros u x Y; apply (SO u); apply in_or_app; auto).
  pose proof (NB p1 _ s eq_refl R) as B. pose proof (run_counts p1 _ s (inv_init w h) (counts_init w h) (sched_ok _ SO1) R B) as (J1 & _).
  pose proof (J1 a (top_fr _ _ _ _ HN)) as CA. unfold counted in CA. rewrite HG in CA. destruct CA as (CA & _).
  exists p1, t, ch, p2, s, (a_id a), l. split; auto. split; auto. split; [exists a, rest; auto|]. rewrite <- CA. exact M.
Qed.

Lemma run_snoc sched x s s1 : run sched s = Ok s1 -> run (sched ++ [x]) s = step s1 (fst x) (snd x).
Proof.
  revert s. induction sched as [|(u, c) r IH]; cbn; intros s H.
  - injection H as <-. destruct x as (u, c). cbn. now destruct (step s u c).
  - destruct (step s u c); try discriminate. auto.
Qed.
Lemma exit_limit w h sched s t a l ch : schedule_ok sched -> run sched (init w h) = Ok s -> s_bad s = false -> ch_ok ch -> launching s t a l ->
  (step s t ch = Exit <-> 128 * 2 ^ 14 < pending a (s_log s) + l_c0 l * l_c1 l * l_c2 l).
Proof.
  intros SO R B CO (b & rest & HN & <- & PC).
  pose proof (run_inv sched _ s (inv_init w h) (sched_ok _ SO) R B) as I0.
  pose proof (run_counts sched _ s (inv_init w h) (counts_init w h) (sched_ok _ SO) R B) as (J1 & _).
  pose proof (J1 b (top_fr _ _ _ _ HN)) as CA. pose proof (v_act _ I0 b (top_fr _ _ _ _ HN)) as AO. unfold act_ok in AO. rewrite PC in AO. destruct AO as (HH & LO).
  split.
  - intros E. destruct (step_exit _ _ _ E) as (a0 & rest0 & g & l0 & HN' & HG & PC' & M). rewrite HN in HN'. injection HN' as <- <-. rewrite PC in PC'. injection PC' as <-.
    unfold counted in CA. rewrite HG in CA. destruct CA as (CA & _). rewrite <- CA. exact M.
  - intros M. destruct (step_good s t ch I0 CO) as (NU & _). destruct (step s t ch) as [s2| |] eqn:E; [|now destruct NU|auto]. exfalso.
    unfold step in E. rewrite HN in E. unfold step_act in E. rewrite PC in E. destruct (a_handle b) as [g|] eqn:HG; [|discriminate].
    unfold counted in CA. rewrite HG in CA. destruct CA as (CA & _). destruct (_ || _) in E; [discriminate|].
    assert (P : 0 < count_of l) by (unfold launch_ok in LO; unfold count_of; nia).
    change (l_c0 l * l_c1 l * l_c2 l) with (count_of l) in M. rewrite <- CA in M.
    apply Z.ltb_lt in P. rewrite P in E. change (128 * 2 ^ 14) with max_tasks in M. apply Z.ltb_lt in M. rewrite M in E. discriminate.
Qed.
