(** Some thread can always make progress. *)
From Coq Require Import ZArith List Bool Arith Lia Zwf.
From Verif Require Import TasksModel TasksSpec TasksProofs TasksProofs2 TasksProofs3 TasksProofs4 TasksProofs5 TasksProofs6 TasksProofs7.
Import ListNotations.
Open Scope Z_scope.

(** ** No cycle of waiting threads *)
Lemma stack_above fs f g : stack_ok fs -> In f fs -> dec_of f = Some g ->
  (exists r, fs = f :: r) \/
  exists a r b d i, fs = FAct a :: r /\ In (FAct b) fs /\ a_task b = Some (g, d, i) /\ (a_id b <= a_id a)%nat.
Proof.
  induction fs as [|x fs IH]; intros SK HI D; [contradiction|]. destruct HI as [->|HI]; [left; eauto|]. right.
  cbn [stack_ok] in SK. destruct SK as (SK & H). destruct fs as [|y fs]; [contradiction|].
  destruct H as (a & g' & d & i & -> & TA & DY & LT). destruct (IH SK HI D) as [(r & E)|(a1 & r & b & d1 & i1 & E & HB & TB & LE)].
  - injection E as -> ->. rewrite D in DY. injection DY as <-. exists a, (f :: r), a, d, i. cbn. auto.
  - injection E as -> ->. exists a, (FAct a1 :: r), b, d1, i1. split; auto. split; [right; auto|]. split; auto. lia.
Qed.

Lemma id_bound s a : inv s -> fr (s_thr s) (FAct a) -> (a_id a < s_act s)%nat.
Proof.
  intros I F. destruct (le_lt_dec (s_act s) (a_id a)) as [L|L]; auto. pose proof (v_idnew _ I _ L) as X.
  pose proof (tot_fr (w_id (a_id a)) _ _ (w_id_nn _) F) as Y. cbn in Y. rewrite Nat.eqb_refl in Y. cbn in Y. lia.
Qed.

Lemma top_work s t i p rest : inv s -> nth_error (s_thr s) t = Some (FWork i p :: rest) -> rest = [].
Proof.
  intros I HN. pose proof (v_stack _ I _ _ HN) as SK. cbn [stack_ok] in SK. destruct rest as [|f rest]; auto.
  destruct SK as (_ & a & g & d & j & X & _). discriminate.
Qed.

Lemma not_all_stuck s : inv s ->
  (forall t fs, nth_error (s_thr s) t = Some fs -> fs = [] \/ (exists i, fs = [FWork i WWait]) \/ exists a r, fs = FAct a :: r /\ stuck s a) ->
  idle s.
Proof.
  intros I H.
  assert (NO : forall n t a r, (s_act s - a_id a < n)%nat -> nth_error (s_thr s) t = Some (FAct a :: r) -> False).
  { induction n as [|n IH]; intros t a r LT HN; [lia|]. destruct (H t _ HN) as [X|[(i & X)|(a0 & r0 & X & ST)]]; try discriminate.
    injection X as <- <-. destruct ST as (PC & AC & g & HG & U).
    destruct (holder s t a r g I HN HG) as (H1 & S1 & GN & OTH & AD). rewrite (quiet_add g a) in AD by (rewrite PC; exact Logic.I).
    assert (W0 : g_wait (s_grp s g) = []).
    { destruct (g_wait (s_grp s g)) as [|z w] eqn:W; auto. exfalso. assert (X : In g (s_active s)) by (apply (v_active _ I); congruence).
      rewrite AC in X. contradiction. }
    pose proof (v_unf _ I g) as E. rewrite AD, W0 in E. cbn [length] in E.
    destruct (tot_pos (w_dec g) (s_thr s) ltac:(lia)) as (u & fs & f & E1 & E2 & E3).
    unfold w_dec in E3. destruct (nat_eqb_opt (dec_of f) g) eqn:DF; cbn in E3; [|lia]. apply nat_eqb_opt_some in DF.
    destruct (stack_above fs f g (v_stack _ I _ _ E1) E2 DF) as [(r1 & ->)|(a1 & r1 & b & d & i & -> & HB & TB & LE)].
    - destruct (H u _ E1) as [X|[(i & X)|(a1 & r2 & X & (PC1 & _))]]; try discriminate.
      + injection X as -> ->. discriminate.
      + injection X as -> ->. cbn in DF. rewrite PC1 in DF. discriminate.
    - assert (F : fr (s_thr s) (FAct b)) by (exists u, (FAct a1 :: r1); auto).
      destruct (v_task _ I (FAct b) g d i F TB) as (OW & LT1). cbn in LT1.
      destruct (tot_pos (w_own g (fst d)) (s_thr s) ltac:(lia)) as (v & gs & fm & G1 & G2 & G3).
      apply w_own_one in G3 as (c & -> & HC & IC).
      assert (EQ : a_id a = fst d).
      { assert (D : {FAct a = FAct c} + {FAct a <> FAct c}) by (repeat (decide equality; try apply Z.eq_dec; try apply Nat.eq_dec)).
        destruct D as [D|D]; [injection D as ->; auto|]. exfalso.
        pose proof (tot_two (w_hold g) _ t v _ gs _ _ (w_hold_nn g) HN G1 (or_introl eq_refl) G2 D) as T.
        rewrite (hold_some a g HG), (hold_some c g HC) in T. lia. }
      apply (IH u a1 r1); auto. pose proof (id_bound s a1 I (top_fr _ _ _ _ E1)). lia. }
  intros t fs E. destruct (H t fs E) as [X|[X|(a & r & -> & _)]]; auto. exfalso. eapply (NO _ t a r); eauto.
Qed.

(** ** Compare-and-swap in AllocTaskGroup *)
Definition fresh_cas (s : st) : Prop :=
  forall b l i g, fr (s_thr s) (FAct b) -> a_pc b = PCas l i g -> nth i (s_free s) None = None \/ nth i (s_free s) None = Some g.
Definition no_cas (s : st) : Prop := forall b l i g, fr (s_thr s) (FAct b) -> a_pc b <> PCas l i g.

Lemma fr_new thr t fs0 fs f : nth_error thr t = Some fs0 -> fr (upd t fs thr) f -> In f fs \/ fr thr f.
Proof.
  intros E (u & gs & E' & HI). destruct (Nat.eq_dec u t) as [->|N].
  - rewrite (nth_error_upd_same _ _ _ _ E) in E'. injection E' as <-. auto.
  - rewrite (nth_error_upd_other _ _ _ _ N) in E'. right. exists u, gs. auto.
Qed.

Definition top_ok (s : st) (f : frame) : Prop :=
  match f with FAct b => match a_pc b with PCas l i g => nth i (s_free s) None = Some g | _ => True end | _ => True end.

Lemma fresh_put s s1 t fs0 fs : no_cas s -> nth_error (s_thr s) t = Some fs0 -> s_thr s1 = upd t fs (s_thr s) ->
  (forall f, In f fs -> top_ok s1 f \/ In f fs0) -> fresh_cas s1.
Proof.
  intros NC HN T H b l i g F PC. rewrite T in F. apply (fr_new _ _ _ _ _ HN) in F as [F|F].
  - destruct (H _ F) as [X|X]; [cbn in X; rewrite PC in X; auto|]. exfalso. eapply NC; [|eauto]. exists t, fs0. auto.
  - exfalso. eapply NC; eauto.
Qed.

Lemma fresh_take s t fs ti tc s1 f0 rest : no_cas s -> nth_error (s_thr s) t = Some (f0 :: rest) ->
  (forall g, exists f', fs g = f' :: rest /\ forall s, top_ok s f') -> take_last s t fs ti tc = Ok s1 -> fresh_cas s1.
Proof.
  intros NC HN FS H. unfold take_last in H. destruct (unsnoc (s_active s)) as [[r g]|]; [|discriminate].
  destruct (unsnoc (g_wait (s_grp s g))) as [[w j]|]; [|discriminate]. destruct (FS g) as (f' & E & TF). rewrite E in H.
  destruct w; injection H as <-; (eapply fresh_put; [eauto|eauto|reflexivity|]);
    (intros f [<-|[<-|X]]; [left; exact Logic.I|left; apply TF|right; right; auto]).
Qed.

Lemma fresh_step s t s1 : no_cas s -> step s t CReturn = Ok s1 -> fresh_cas s1.
Proof.
  intros NC H.
  assert (SAME : fresh_cas s) by (intros b l i g F P; exfalso; eapply NC; eauto).
  unfold step in H. destruct (nth_error (s_thr s) t) as [[|[a|i p] rest]|] eqn:HN; try (injection H as <-; exact SAME).
  - assert (TO : forall s0 a', s_thr s0 = s_thr s -> top_ok s0 (FAct a') -> fresh_cas (put s0 t (FAct a' :: rest))).
    { intros s0 a' T X. eapply fresh_put; [eauto|eauto|cbn; rewrite T; reflexivity|].
      intros f [<-|Y]; [left; exact X|right; right; auto]. }
    assert (TL : forall s0 a' e, s_thr s0 = s_thr s -> top_ok s0 (FAct a') -> fresh_cas (with_log (put s0 t (FAct a' :: rest)) e)).
    { intros s0 a' e T X. exact (TO s0 a' T X). }
    unfold step_act in H. destruct (a_pc a) as [|l i|l i g|l|l d base|n|n| | |g|i|i] eqn:PC.
    + destruct (a_handle a); [injection H as <-; apply TO; cbn; auto|].
      assert (X : fresh_cas (put s t rest)).
      { eapply fresh_put; [eauto|eauto|reflexivity|]. intros f Y. right. right. auto. }
      destruct (a_task a) as [[[h d] i]|]; injection H as <-; exact X.
    + destruct (Nat.ltb_spec i max_free) as [L|L].
      * destruct (nth i (s_free s) None) eqn:E; injection H as <-; apply TO; cbn; auto.
      * injection H as <-. apply TO; cbn; auto.
    + exfalso. eapply NC; [|eauto]. eapply top_fr; eauto.
    + destruct (a_handle a) as [g|]; [|discriminate]. destruct (_ || _) in H; [discriminate|]. destruct (_ && _) in H; [discriminate|].
      injection H as <-. apply TL; cbn; auto.
    + destruct (a_handle a) as [g|]; [|discriminate]. injection H as <-. apply TO; [destruct (g_in (s_grp s g)); reflexivity|cbn; auto].
    + destruct (a_handle a) as [g|]; [|discriminate]. injection H as <-. apply TO; cbn; auto.
    + destruct (0 <? n); injection H as <-; apply TO; cbn; auto.
    + destruct (a_handle a) as [g|]; [|discriminate]. destruct (0 <? g_unf (s_grp s g)); [injection H as <-; apply TO; cbn; auto|].
      destruct (g_in (s_grp s g)); [discriminate|]. injection H as <-. apply TL; cbn; auto.
    + destruct (a_handle a) as [g|]; [|discriminate].
      destruct (unsnoc (g_wait (s_grp s g))) as [[w j]|].
      * assert (X : forall s0, s_thr s0 = s_thr s -> fresh_cas (start s0 t (FAct (set_pc a (PDec g)) :: rest) g j 0 1)).
        { intros s0 T. eapply fresh_put; [eauto|eauto|cbn; rewrite T; reflexivity|].
          intros f [<-|[<-|Y]]; [left; exact Logic.I|left; exact Logic.I|right; right; auto]. }
        destruct w; [destruct (erase g (s_active s)); [|discriminate]|]; injection H as <-; apply X; reflexivity.
      * destruct (s_active s) eqn:E; [injection H as <-; apply TO; cbn; auto|].
        eapply fresh_take; eauto. intros h. eexists. split; [reflexivity|]. intros; exact Logic.I.
    + injection H as <-. apply TO; cbn; auto.
    + destruct (i <? max_free)%nat; [destruct (nth i (s_free s) None)|]; injection H as <-; apply TO; cbn; auto.
    + destruct (nth i (s_free s) None); injection H as <-; apply TO; cbn; auto.
  - assert (TO : forall s0 p', s_thr s0 = s_thr s -> fresh_cas (put s0 t (FWork i p' :: rest))).
    { intros s0 p' T. eapply fresh_put; [eauto|eauto|cbn; rewrite T; reflexivity|].
      intros f [<-|Y]; [left; exact Logic.I|right; right; auto]. }
    destruct p as [| |g]; cbn [step_work] in H.
    + destruct (0 <? s_sem s); injection H as <-; auto.
    + destruct (s_active s) eqn:E; [injection H as <-; auto|].
      eapply fresh_take; eauto. intros h. eexists. split; [reflexivity|]. intros; exact Logic.I.
    + injection H as <-. apply TO. auto.
Qed.

(** Steps that are not the failing compare-and-swap *)
Lemma step_not_bad s t s1 : no_cas s -> step s t CReturn = Ok s1 -> s_bad s1 = s_bad s.
Proof.
  intros NC H. unfold step, step_act, step_work, take_last in H.
  destruct (nth_error (s_thr s) t) as [[|[a|i p] rest]|] eqn:HN; [| |
    repeat match type of H with
         | context [match ?x with _ => _ end] => destruct x eqn:?
         end; try discriminate; injection H as <-; auto|]; try (injection H as <-; auto; fail).
  destruct (a_pc a) eqn:PC; try (exfalso; eapply NC; [eapply top_fr; eauto|eauto]; fail);
  repeat match type of H with
         | context [match ?x with _ => _ end] => destruct x eqn:?
         end; try discriminate; injection H as <-; auto.
Qed.

(** The compare-and-swap of a thread. *)
Lemma step_cas s t a rest l i g : fresh_cas s -> nth_error (s_thr s) t = Some (FAct a :: rest) -> a_pc a = PCas l i g ->
  exists s1, step s t CReturn = Ok s1 /\ s_bad s1 = s_bad s /\ fresh_cas s1.
Proof.
  intros FC HN PC. unfold step. rewrite HN. unfold step_act. rewrite PC.
  pose proof (top_fr _ _ _ _ HN) as FA.
  assert (FR : forall s0 f x, s_thr s0 = upd t (f :: rest) (s_thr s) -> fr (s_thr s0) x -> x = f \/ fr (s_thr s) x).
  { intros s0 f x T F. rewrite T in F. apply (fr_new _ _ _ _ _ HN) in F as [[F|F]|F]; auto. right. exists t, (FAct a :: rest). split; auto. right; auto. }
  destruct (FC a l i g FA PC) as [E|E]; rewrite E.
  - eexists. split; [reflexivity|]. split; auto. intros b l' i' g' F PB. cbn [put s_free].
    eapply FR in F; [|reflexivity]; destruct F as [F|F]; [injection F as ->; discriminate|]. eapply FC; eauto.
  - rewrite Nat.eqb_refl. eexists. split; [reflexivity|]. split; auto. intros b l' i' g' F PB. cbn [put with_free s_free].
    eapply FR in F; [|reflexivity]; destruct F as [F|F]; [injection F as ->; discriminate|].
    destruct (FC _ _ _ _ F PB) as [X|X].
    + left. assert (Y : forall (q : list (option nat)) n m, nth m q None = None -> nth m (upd n None q) None = None).
      { induction q as [|y q IHq]; intros [|n] [|m] Z; cbn in *; auto. }
      apply Y. auto.
    + destruct (Nat.eq_dec i' i) as [->|N].
      * left. assert (Y : forall (q : list (option nat)) n, nth n (upd n None q) None = None).
        { induction q as [|y q IHq]; intros [|n]; cbn in *; auto. }
        apply Y.
      * right. rewrite <- X. assert (Y : forall (q : list (option nat)) n m, m <> n -> nth m (upd n None q) None = nth m q None).
        { induction q as [|y q IHq]; intros [|n] [|m] Z; cbn in *; auto; try lia. }
        apply Y. auto.
Qed.

Lemma cas_or_not s : inv s -> no_cas s \/ exists t a rest l i g, nth_error (s_thr s) t = Some (FAct a :: rest) /\ a_pc a = PCas l i g.
Proof.
  intros I.
  assert (D : forall thr : list (list frame), (forall t fs, nth_error thr t = Some fs -> stack_ok fs) ->
    (forall b l i g, fr thr (FAct b) -> a_pc b <> PCas l i g) \/ exists t a rest l i g, nth_error thr t = Some (FAct a :: rest) /\ a_pc a = PCas l i g).
  { induction thr as [|fs thr IH]; intros SK.
    - left. intros b l i g (t & fs & E & _). destruct t; discriminate.
    - destruct IH as [IH|(t & a & rest & l & i & g & E & P)]; [intros t gs E; apply (SK (S t) gs E)| |right; exists (S t), a, rest, l, i, g; auto].
      assert (Q : (exists a rest l i g, fs = FAct a :: rest /\ a_pc a = PCas l i g) \/ forall b l i g, In (FAct b) fs -> a_pc b <> PCas l i g).
      { specialize (SK 0%nat fs eq_refl). clear - SK.
        assert (LOW : forall fs f, stack_ok (f :: fs) -> forall b l i g, In (FAct b) fs -> a_pc b <> PCas l i g).
        { clear. induction fs as [|x fs IH]; intros f SK b l i g HI P; [contradiction|]. cbn [stack_ok] in SK. destruct SK as (SK & a & h & d & j & _ & _ & D & _).
          destruct HI as [->|HI]; [cbn in D; rewrite P in D; discriminate|]. exact (IH x SK b l i g HI P). }
        destruct fs as [|f fs]; [right; intros b l i g []|]. destruct f as [a|k p].
        - destruct (a_pc a) as [|l i|l i g|l|l d base|n|n| | |g|i|i] eqn:PC;
            try (right; intros b l' i' g' [X|X] P; [injection X as ->; congruence|exact (LOW fs _ SK b l' i' g' X P)]; fail).
          left. exists a, fs, l, i, g. auto.
        - right. intros b l i g [X|X] P; [discriminate|exact (LOW fs _ SK b l i g X P)]. }
      destruct Q as [(a & rest & l & i & g & -> & P)|Q].
      + right. exists 0%nat, a, rest, l, i, g. auto.
      + left. intros b l i g (t & gs & E & HI). destruct t as [|t]; cbn in E; [injection E as <-; eauto|]. eapply IH. exists t, gs. eauto. }
  apply (D (s_thr s)). apply (v_stack _ I).
Qed.

(** Either some thread can do something useful, or all are idle. *)
Definition useful (s : st) (fs : list frame) : Prop :=
  match fs with
  | [] => False
  | FWork _ p :: _ => p <> WWait
  | FAct a :: _ => a_pc a <> PHelp \/ s_active s <> []
  end.
(** A thread at the end of a sync that has not noticed. *)
Definition ready (s : st) (fs : list frame) : Prop :=
  match fs with
  | FAct a :: _ => a_pc a = PHelp /\ s_active s = [] /\ exists g, a_handle a = Some g /\ g_unf (s_grp s g) <= 0
  | _ => False
  end.

Lemma some_useful s : inv s -> idle s \/ exists t fs, nth_error (s_thr s) t = Some fs /\ (useful s fs \/ ready s fs).
Proof.
  intros I.
  assert (D : forall t fs, nth_error (s_thr s) t = Some fs ->
     (fs = [] \/ (exists i, fs = [FWork i WWait]) \/ exists a r, fs = FAct a :: r /\ stuck s a) \/ useful s fs \/ ready s fs).
  { intros t fs E. destruct fs as [|[a|i p] r]; auto.
    - destruct (s_active s) eqn:AC; [|right; left; right; congruence].
      assert (Q : a_pc a = PHelp \/ a_pc a <> PHelp) by (destruct (a_pc a); (left; reflexivity) || (right; discriminate)).
      destruct Q as [Q|Q]; [|right; left; left; auto].
      pose proof (v_act _ I a (top_fr _ _ _ _ E)) as AO. unfold act_ok in AO. rewrite Q in AO.
      destruct (a_handle a) as [g|] eqn:HG; [|congruence].
      destruct (Z_lt_dec 0 (g_unf (s_grp s g))) as [U|U].
      + left. right. right. exists a, r. split; auto. split; auto. split; auto. exists g. auto.
      + right. right. split; auto. split; auto. exists g. split; auto. lia.
    - rewrite (top_work s t i p r I E). destruct p; [left; right; left; eauto|right; left; discriminate|right; left; discriminate]. }
  assert (F : (forall t fs, nth_error (s_thr s) t = Some fs -> fs = [] \/ (exists i, fs = [FWork i WWait]) \/ exists a r, fs = FAct a :: r /\ stuck s a) \/
              exists t fs, nth_error (s_thr s) t = Some fs /\ (useful s fs \/ ready s fs)).
  { revert D. generalize (s_thr s). induction l as [|fs l IH]; intros D.
    - left. intros [|t] fs E; discriminate.
    - destruct (IH (fun t => D (S t))) as [A|(t & gs & E & U)]; [|right; exists (S t), gs; auto].
      destruct (D 0%nat fs eq_refl) as [B|B]; [|right; exists 0%nat, fs; auto].
      left. intros [|t] gs E; cbn in E; [injection E as <-; auto|eauto]. }
  destruct F as [F|F]; auto. left. apply not_all_stuck; auto.
Qed.

Definition run_on (s : st) (sched : list (nat * choice)) : Prop :=
  run sched s = Exit \/ exists s', run sched s = Ok s' /\ inv s' /\ s_bad s' = false /\ idle s'.

Lemma one_step s t : inv s -> s_bad s = false -> fresh_cas s -> (exists fs, nth_error (s_thr s) t = Some fs /\ useful s fs) ->
  (no_cas s \/ exists a rest l i g, nth_error (s_thr s) t = Some (FAct a :: rest) /\ a_pc a = PCas l i g) ->
  step s t CReturn = Exit \/
  exists s1, step s t CReturn = Ok s1 /\ inv s1 /\ s_bad s1 = false /\ fresh_cas s1 /\ work s1 < work s.
Proof.
  intros I B FC (fs & HN & U) C. destruct (step_good s t CReturn I Logic.I) as (NU & G).
  assert (L : less s (step s t CReturn)).
  { pose proof (step_less s t fs I HN) as X. destruct fs as [|[a|i p] r]; [contradiction|apply X; exact U|apply X; exact U]. }
  assert (X : forall s1, step s t CReturn = Ok s1 -> s_bad s1 = s_bad s /\ fresh_cas s1).
  { intros s1 E. destruct C as [NC|(a & rest & l & i & g & HN' & P)].
    - split; [eapply step_not_bad; eauto|eapply fresh_step; eauto].
    - destruct (step_cas s t a rest l i g FC HN' P) as (s2 & E2 & B2 & F2). rewrite E in E2. injection E2 as <-. auto. }
  destruct (step s t CReturn) as [s1| |] eqn:E; [|congruence|auto]. right. exists s1.
  destruct (X s1 eq_refl) as (B1 & F1). split; auto. split; [apply G; auto; congruence|]. split; [congruence|]. auto.
Qed.

Lemma run_cons t ch r s s1 : step s t ch = Ok s1 -> run ((t, ch) :: r) s = run r s1.
Proof. intros E. cbn. rewrite E. reflexivity. Qed.

Theorem completes s : inv s -> s_bad s = false -> fresh_cas s ->
  exists sched, (forall t ch, In (t, ch) sched -> ch = CReturn) /\ run_on s sched.
Proof.
  remember (Z.to_nat (work s)) as n eqn:HN. revert s HN. induction n as [n IH] using (well_founded_induction lt_wf).
  intros s HN I B FC.
  assert (GO : forall s1 pre, run pre s = Ok s1 -> (forall t ch, In (t, ch) pre -> ch = CReturn) ->
            inv s1 -> s_bad s1 = false -> fresh_cas s1 -> work s1 < work s ->
            exists sched, (forall t ch, In (t, ch) sched -> ch = CReturn) /\ run_on s sched).
  { intros s1 pre R PR I1 B1 F1 L1. pose proof (work_nn s1). destruct (IH (Z.to_nat (work s1)) ltac:(lia) s1 eq_refl I1 B1 F1) as (sched & S1 & S2).
    exists (pre ++ sched). split; [intros t ch X; apply in_app_or in X as [X|X]; eauto|].
    assert (Y : run (pre ++ sched) s = run sched s1).
    { clear - R. revert s R. induction pre as [|[t ch] pre IHp]; cbn; intros s R; [injection R as ->; auto|].
      destruct (step s t ch); try discriminate. auto. }
    unfold run_on. rewrite Y. exact S2. }
  assert (ONE : forall t, (exists fs, nth_error (s_thr s) t = Some fs /\ useful s fs) ->
            (no_cas s \/ exists a rest l i g, nth_error (s_thr s) t = Some (FAct a :: rest) /\ a_pc a = PCas l i g) ->
            exists sched, (forall t ch, In (t, ch) sched -> ch = CReturn) /\ run_on s sched).
  { intros t U C. destruct (one_step s t I B FC U C) as [E|(s1 & E & I1 & B1 & F1 & L1)].
    - exists [(t, CReturn)]. split; [intros t' ch [X|[]]; congruence|]. left. cbn. rewrite E. auto.
    - apply (GO s1 [(t, CReturn)]); auto; [cbn; rewrite E; auto|]. intros t' ch [X|[]]; congruence. }
  destruct (cas_or_not s I) as [NC|(t & a & rest & l & i & g & E & P)].
  2:{ apply (ONE t); [|right; exists a, rest, l, i, g; auto]. exists (FAct a :: rest). split; auto. left. congruence. }
  destruct (some_useful s I) as [ID|(t & fs & E & [U|R])].
  - exists []. split; [intros t ch []|]. right. exists s. auto.
  - apply (ONE t); eauto.
  - destruct fs as [|[a|] rest]; try contradiction. destruct R as (PC & AC & g & HG & U).
    set (s1 := put s t (FAct (set_pc a PSync) :: rest)).
    assert (W0 : g_wait (s_grp s g) = []).
    { destruct (g_wait (s_grp s g)) as [|z w] eqn:W; auto. exfalso. assert (X : In g (s_active s)) by (apply (v_active _ I); congruence).
      rewrite AC in X. contradiction. }
    assert (E1 : step s t CReturn = Ok s1).
    { unfold step. rewrite E. unfold step_act. rewrite PC, HG, W0. cbn [unsnoc rev]. rewrite AC. reflexivity. }
    destruct (step_good s t CReturn I Logic.I) as (_ & G). specialize (G s1 E1 B).
    pose proof (fresh_step s t s1 NC E1) as F1.
    assert (HN1 : nth_error (s_thr s1) t = Some (FAct (set_pc a PSync) :: rest)) by (cbn; eapply nth_error_upd_same; eauto).
    assert (NC1 : no_cas s1).
    { intros b l i h F P. cbn in F. apply (fr_new _ _ _ _ _ E) in F as [[F|F]|F].
      - injection F as <-. discriminate.
      - eapply NC; [|eauto]. exists t, (FAct a :: rest). split; auto. right; auto.
      - eapply NC; eauto. }
    destruct (sync_empty s1 t (set_pc a PSync) rest g G HN1 HG eq_refl U) as (W1 & D1 & GI).
    assert (E2 : step s1 t CReturn = Ok (with_log (put (with_grp s1 g (reset (s_grp s1 g))) t (FAct (set_pc (set_pc a PSync) (PPut 0)) :: rest)) (EvSync (a_id a)))).
    { unfold step. rewrite HN1. unfold step_act. cbn [set_pc a_pc a_handle a_id]. rewrite HG, GI.
      change (g_unf (s_grp s1 g)) with (g_unf (s_grp s g)). destruct (Z.ltb_spec 0 (g_unf (s_grp s g))); [lia|]. reflexivity. }
    match type of E2 with _ = Ok ?x => set (s2 := x) in E2 end.
    apply (GO s2 [(t, CReturn); (t, CReturn)]).
    + cbn. rewrite E1, E2. auto.
    + intros t' ch [X|[X|[]]]; congruence.
    + destruct (step_good s1 t CReturn G Logic.I) as (_ & G2). apply G2; auto.
    + exact B.
    + eapply fresh_step; [exact NC1|exact E2].
    + destruct (holder s t a rest g I E HG) as (_ & _ & GN & _). unfold work.
      assert (GW : gw s2 = gw s).
      { rewrite (gw_set s s2 g eq_refl GN).
        - cbn [s2 with_log put with_grp s_grp]. rewrite set_grp_same. cbn [reset g_wait s1 put s_grp]. lia.
        - intros h N. cbn [s2 with_log put with_grp s_grp]. rewrite set_grp_other; auto. }
      rewrite GW. cbn [s2 with_log put with_grp s_thr]. rewrite (tot_upd _ _ _ _ _ HN1).
      cbn [s1 put s_thr]. rewrite (tot_upd _ _ _ _ _ E). cbn [ws cost set_pc a_pc]. rewrite PC. unfold pos. lia.
Qed.
