(** When only one thread launches tasks, a compare-and-swap in AllocTaskGroup cannot go wrong. *)
From Coq Require Import ZArith List Bool Arith Lia.
From Verif Require Import TasksModel TasksSpec TasksProofs TasksProofs2 TasksProofs3 TasksProofs4 TasksProofs5 TasksProofs6 TasksProofs7 TasksProofs8.
Import ListNotations.
Open Scope Z_scope.

Definition plain (f : frame) : Prop := match f with FAct a => a_handle a = None /\ a_pc a = PRun | _ => True end.
Definition no_casf (f : frame) : Prop := match f with FAct a => match a_pc a with PCas _ _ _ => False | _ => True end | _ => True end.
Definition one_ok (t0 : nat) (s : st) : Prop :=
  s_bad s = false /\
  (forall u fs f, u <> t0 -> nth_error (s_thr s) u = Some fs -> In f fs -> plain f) /\
  (forall f fs, nth_error (s_thr s) t0 = Some (f :: fs) -> top_ok s f /\ forall x, In x fs -> no_casf x).

Lemma no_cas_top s f : no_casf f -> top_ok s f.
Proof. destruct f as [a|]; cbn; auto. destruct (a_pc a); auto. contradiction. Qed.

Lemma one_other t0 s s1 u f fs gs : one_ok t0 s -> u <> t0 -> nth_error (s_thr s) u = Some (f :: fs) -> s_thr s1 = upd u gs (s_thr s) ->
  (forall x, In x gs -> plain x \/ In x fs) -> s_free s1 = s_free s -> s_bad s1 = s_bad s -> one_ok t0 s1.
Proof.
  intros (B & O & T) N HN E G F BB. split; [congruence|]. split.
  - intros v hs x NV HV HX. rewrite E in HV. destruct (Nat.eq_dec v u) as [->|NU].
    + rewrite (nth_error_upd_same _ _ _ _ HN) in HV. injection HV as <-. destruct (G x HX) as [P|P]; auto.
      eapply O; eauto. right. auto.
    + rewrite (nth_error_upd_other _ _ _ _ NU) in HV. eapply O; eauto.
  - intros x xs HT. rewrite E in HT. rewrite nth_error_upd_other in HT by auto. destruct (T x xs HT) as (A & C). split; auto.
    unfold top_ok. rewrite F. exact A.
Qed.

Lemma one_same t0 s s1 f fs gs : one_ok t0 s -> nth_error (s_thr s) t0 = Some (f :: fs) -> s_thr s1 = upd t0 gs (s_thr s) ->
  (forall x xs, gs = x :: xs -> top_ok s1 x /\ forall y, In y xs -> no_casf y) -> s_bad s1 = false -> one_ok t0 s1.
Proof.
  intros (B & O & T) HN E G BB. split; auto. split.
  - intros v hs x NV HV HX. rewrite E in HV. rewrite nth_error_upd_other in HV by auto. eapply O; eauto.
  - intros x xs HT. rewrite E, (nth_error_upd_same _ _ _ _ HN) in HT. injection HT as ->. apply G. auto.
Qed.

Lemma take_shape s t fs ti tc s1 : take_last s t fs ti tc = Ok s1 ->
  exists g n x, s_thr s1 = upd t (FAct (new_act n x) :: fs g) (s_thr s) /\ s_free s1 = s_free s /\ s_bad s1 = s_bad s.
Proof.
  unfold take_last. intros H. destruct (unsnoc (s_active s)) as [[r g]|]; [|discriminate].
  destruct (unsnoc (g_wait (s_grp s g))) as [[w j]|]; [|discriminate].
  destruct w; injection H as <-; exists g; eexists; eexists; (split; [reflexivity|split; reflexivity]).
Qed.

Lemma one_step_ok t0 s t ch s1 : inv s -> one_ok t0 s -> (t <> t0 -> forall l, ch <> CLaunch l) -> step s t ch = Ok s1 -> one_ok t0 s1.
Proof.
  intros I K CL H. pose proof K as (B & OT & TT). destruct (Nat.eq_dec t t0) as [->|N].
  - unfold step in H. destruct (nth_error (s_thr s) t0) as [[|[a|i p] rest]|] eqn:HN; [| | |injection H as <-; auto].
    + destruct ch; injection H as <-; auto. split; [exact B|]. split.
      * intros v hs x NV HV HX. cbn in HV. rewrite nth_error_upd_other in HV by auto. eapply OT; eauto.
      * intros x xs HT. cbn in HT. rewrite (nth_error_upd_same _ _ _ _ HN) in HT. injection HT as <- <-. cbn. split; auto. contradiction.
    + destruct (TT _ _ eq_refl) as (TA & LOW).
      assert (TO : forall s0 a', s_thr s0 = s_thr s -> s_bad s0 = false -> top_ok s0 (FAct a') -> one_ok t0 (put s0 t0 (FAct a' :: rest))).
      { intros s0 a' T B0 X. eapply one_same; [eauto|eauto|cbn; rewrite T; reflexivity| |exact B0].
        intros x xs Y. injection Y as <- <-. auto. }
      assert (ST : forall s0 n x g, s_thr s0 = upd t0 (FAct (new_act n x) :: FAct (set_pc a (PDec g)) :: rest) (s_thr s) -> s_bad s0 = false -> one_ok t0 s0).
      { intros s0 n x g T B0. eapply one_same; [eauto|eauto|exact T| |exact B0].
        intros y ys Y. injection Y as <- <-. cbn. split; auto. intros z [<-|Z]; [exact Logic.I|auto]. }
      assert (TL : forall s0 a' e, s_thr s0 = s_thr s -> s_bad s0 = false -> top_ok s0 (FAct a') -> one_ok t0 (with_log (put s0 t0 (FAct a' :: rest)) e)).
      { intros s0 a' e T B0 X. exact (TO s0 a' T B0 X). }
      unfold step_act in H. destruct (a_pc a) as [|l i|l i g|l|l d base|n|n| | |g|i|i] eqn:PC.
      * destruct ch as [|l| |].
        -- injection H as <-. auto.
        -- destruct (a_handle a); injection H as <-; apply TO; cbn; auto.
        -- destruct (a_handle a); injection H as <-; [apply TO; cbn; auto|exact K].
        -- destruct (a_handle a); [injection H as <-; apply TO; cbn; auto|].
           assert (X : one_ok t0 (put s t0 rest)).
           { eapply one_same; [eauto|eauto|reflexivity| |exact B]. intros x xs ->. split; [|intros y Y; apply LOW; right; auto].
             apply no_cas_top, LOW. left. auto. }
           destruct (a_task a) as [[[h d] j]|]; injection H as <-; exact X.
      * destruct (Nat.ltb_spec i max_free) as [L|L].
        -- destruct (nth i (s_free s) None) eqn:E; injection H as <-; apply TO; cbn; auto.
        -- injection H as <-. apply TO; cbn; auto.
      * cbn in TA. rewrite PC in TA. rewrite TA, Nat.eqb_refl in H. injection H as <-. apply TO; cbn; auto.
      * destruct (a_handle a) as [g|]; [|discriminate]. destruct (_ || _) in H; [discriminate|]. destruct (_ && _) in H; [discriminate|].
        injection H as <-. apply TL; cbn; auto.
      * destruct (a_handle a) as [g|]; [|discriminate]. injection H as <-. apply TO; [destruct (g_in (s_grp s g)); reflexivity|destruct (g_in (s_grp s g)); exact B|cbn; auto].
      * destruct (a_handle a) as [g|]; [|discriminate]. injection H as <-. apply TO; cbn; auto.
      * destruct (0 <? n); injection H as <-; apply TO; cbn; auto.
      * destruct (a_handle a) as [g|]; [|discriminate]. destruct (0 <? g_unf (s_grp s g)); [injection H as <-; apply TO; cbn; auto|].
        destruct (g_in (s_grp s g)); [discriminate|]. injection H as <-. apply TL; cbn; auto.
      * destruct (a_handle a) as [g|]; [|discriminate].
        destruct (unsnoc (g_wait (s_grp s g))) as [[w j]|].
        -- destruct w; [destruct (erase g (s_active s)); [|discriminate]|]; injection H as <-; eapply ST; [reflexivity|exact B|reflexivity|exact B].
        -- destruct (s_active s) eqn:E; [injection H as <-; apply TO; cbn; auto|].
           apply take_shape in H as (g1 & n1 & x & T & F & BB). eapply ST; [exact T|congruence].
      * injection H as <-. apply TO; cbn; auto.
      * destruct (i <? max_free)%nat; [destruct (nth i (s_free s) None)|]; injection H as <-; apply TO; cbn; auto.
      * destruct (nth i (s_free s) None); injection H as <-; apply TO; cbn; auto.
    + destruct (TT _ _ eq_refl) as (TA & LOW).
      assert (TO : forall s0 p', s_thr s0 = s_thr s -> s_bad s0 = false -> one_ok t0 (put s0 t0 (FWork i p' :: rest))).
      { intros s0 p' T B0. eapply one_same; [eauto|eauto|cbn; rewrite T; reflexivity| |exact B0].
        intros x xs Y. injection Y as <- <-. split; [exact Logic.I|auto]. }
      destruct p as [| |g]; cbn [step_work] in H.
      * destruct (0 <? s_sem s); injection H as <-; auto.
      * destruct (s_active s) eqn:E; [injection H as <-; auto|].
        apply take_shape in H as (g1 & n1 & x & T & F & BB). eapply one_same; [eauto|eauto|exact T| |congruence].
        intros y ys Y. injection Y as <- <-. split; [exact Logic.I|]. intros z [<-|Z]; [exact Logic.I|auto].
      * injection H as <-. apply TO; auto.
  - unfold step in H. destruct (nth_error (s_thr s) t) as [[|[a|i p] rest]|] eqn:HN; [| | |injection H as <-; auto].
    + destruct ch; injection H as <-; auto. split; [exact B|]. split.
      * intros v hs x NV HV HX. cbn in HV. destruct (Nat.eq_dec v t) as [->|NU].
        -- rewrite (nth_error_upd_same _ _ _ _ HN) in HV. injection HV as <-. destruct HX as [<-|[]]. cbn. auto.
        -- rewrite nth_error_upd_other in HV by auto. eapply OT; eauto.
      * intros x xs HT. cbn in HT. rewrite nth_error_upd_other in HT by auto. exact (TT x xs HT).
    + destruct (OT t _ (FAct a) N HN (or_introl eq_refl)) as (HA & PC). unfold step_act in H. rewrite PC, HA in H.
      destruct ch as [|l| |].
      * injection H as <-. auto.
      * exfalso. exact (CL N l eq_refl).
      * injection H as <-. exact K.
      * assert (X : one_ok t0 (put s t rest)).
        { eapply one_other; [eauto|eauto|eauto|reflexivity| |reflexivity|reflexivity]. auto. }
        destruct (a_task a) as [[[h d] j]|]; injection H as <-; exact X.
    + destruct p as [| |g]; cbn [step_work] in H.
      * destruct (0 <? s_sem s); injection H as <-; auto.
        eapply one_other; [eauto|eauto|eauto|reflexivity| |reflexivity|reflexivity]. intros x [<-|X]; auto. left. exact Logic.I.
      * destruct (s_active s) eqn:E.
        -- injection H as <-. eapply one_other; [eauto|eauto|eauto|reflexivity| |reflexivity|reflexivity]. intros x [<-|X]; auto. left. exact Logic.I.
        -- apply take_shape in H as (g1 & n1 & x & T & F & BB). eapply one_other; [eauto|eauto|eauto|exact T| |exact F|exact BB].
           intros y [<-|[<-|Y]]; auto; left; cbn; auto.
      * injection H as <-. eapply one_other; [eauto|eauto|eauto|reflexivity| |reflexivity|reflexivity]. intros x [<-|X]; auto. left. exact Logic.I.
Qed.

Lemma one_init t0 w h : one_ok t0 (init w h).
Proof.
  split; [reflexivity|]. split.
  - intros u fs f _ E HI. assert (F : fr (s_thr (init w h)) f) by (exists u, fs; auto). apply thr_init_fr in F as (i & ->). exact Logic.I.
  - intros f fs E. assert (F : forall x, In x (f :: fs) -> exists i, x = FWork i WWait).
    { intros x X. apply thr_init_fr with w h. exists t0, (f :: fs). auto. }
    split.
    + destruct (F f (or_introl eq_refl)) as (i & ->). exact Logic.I.
    + intros x X. destruct (F x (or_intror X)) as (i & ->). exact Logic.I.
Qed.

Lemma one_run t0 sched s s1 : inv s -> one_ok t0 s -> Forall (fun p => ch_ok (snd p)) sched -> launches_on t0 sched ->
  run sched s = Ok s1 -> one_ok t0 s1.
Proof.
  revert s. induction sched as [|[t ch] r IH]; intros s I K F L H; [injection H as <-; auto|]. cbn in H.
  inversion F as [|? ? F1 F2]; subst. destruct (step s t ch) as [s2| |] eqn:E; try discriminate.
  assert (K2 : one_ok t0 s2).
  { apply (one_step_ok t0 s t ch s2 I K); auto. intros N l EL. subst ch. apply N. apply (L t l). left. auto. }
  apply (IH s2); auto.
  - destruct (step_good s t ch I F1) as (_ & G). apply G; auto. apply K2.
  - intros t' l' X. apply (L t' l'). right. auto.
Qed.
