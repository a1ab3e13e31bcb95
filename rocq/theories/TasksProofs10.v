(** threadIndex and threadCount. *)
From Coq Require Import ZArith List Bool Arith Lia.
From Verif Require Import TasksModel TasksSpec TasksProofs TasksProofs2 TasksProofs3 TasksProofs8 TasksProofs9.
Import ListNotations.
Open Scope Z_scope.

Definition idx_ok (s : st) : Prop :=
  (forall i p, fr (s_thr s) (FWork i p) -> (i < s_workers s)%nat) /\
  (forall x t ti tc, In (EvStart x t ti tc) (s_log s) -> 0 <= ti < tc).

Lemma idx_put s s1 t fs0 fs : idx_ok s -> nth_error (s_thr s) t = Some fs0 -> s_thr s1 = upd t fs (s_thr s) ->
  (forall i p, In (FWork i p) fs -> In (FWork i p) fs0 \/ exists q, In (FWork i q) fs0) -> s_workers s1 = s_workers s ->
  (forall e, In e (s_log s1) -> In e (s_log s) \/ match e with EvStart _ _ ti tc => 0 <= ti < tc | _ => True end) -> idx_ok s1.
Proof.
  intros (A & B) HN T F W L. split.
  - intros i p H. rewrite T in H. rewrite W. apply (fr_new _ _ _ _ _ HN) in H as [H|H]; [|eauto].
    destruct (F _ _ H) as [X|(q & X)]; eapply A; exists t, fs0; eauto.
  - intros x u ti tc H. destruct (L _ H) as [X|X]; eauto.
Qed.

Lemma idx_take s t fs ti tc s1 f0 rest : idx_ok s -> nth_error (s_thr s) t = Some (f0 :: rest) ->
  (forall g, exists f', fs g = f' :: rest /\ forall i p, f' = FWork i p -> exists q, f0 = FWork i q) ->
  0 <= ti < tc -> take_last s t fs ti tc = Ok s1 -> idx_ok s1.
Proof.
  intros K HN FS R H. unfold take_last in H. destruct (unsnoc (s_active s)) as [[r g]|]; [|discriminate].
  destruct (unsnoc (g_wait (s_grp s g))) as [[w j]|]; [|discriminate]. destruct (FS g) as (f' & E & TF). rewrite E in H.
  destruct w; injection H as <-;
    (eapply idx_put; [eauto|eauto|reflexivity| |reflexivity|intros e [<-|X]; [right; exact R|left; exact X]]);
    (intros i p [X|[X|X]]; [discriminate|destruct (TF _ _ X) as (q & ->); right; exists q; left; reflexivity|left; right; exact X]).
Qed.

Lemma idx_step s t ch s1 : idx_ok s -> step s t ch = Ok s1 -> idx_ok s1.
Proof.
  intros K H. unfold step in H. destruct (nth_error (s_thr s) t) as [[|[a|i p] rest]|] eqn:HN; [| | |injection H as <-; auto].
  - destruct ch; injection H as <-; auto. eapply idx_put; [eauto|eauto|reflexivity| |reflexivity|auto].
    intros i p [X|[]]. discriminate.
  - assert (TO : forall s1 a', s_thr s1 = upd t (FAct a' :: rest) (s_thr s) -> s_workers s1 = s_workers s ->
              (forall e, In e (s_log s1) -> In e (s_log s) \/ match e with EvStart _ _ ti tc => 0 <= ti < tc | _ => True end) -> idx_ok s1).
    { intros s2 a' T W L. eapply idx_put; [eauto|eauto|exact T| |exact W|exact L]. intros i p [X|X]; [discriminate|left; right; exact X]. }
    assert (ST : forall s0 g j, s_thr s0 = s_thr s -> s_workers s0 = s_workers s -> s_log s0 = s_log s ->
              idx_ok (start s0 t (FAct (set_pc a (PDec g)) :: rest) g j 0 1)).
    { intros s0 g j T W L. eapply idx_put; [eauto|eauto|cbn; rewrite T; reflexivity| |exact W|].
      - intros i p [X|[X|X]]; [discriminate|discriminate|left; right; exact X].
      - cbn. rewrite L. intros e [<-|X]; [right; lia|auto]. }
    unfold step_act in H. destruct (a_pc a) as [|l i|l i g|l|l d base|n|n| | |g|i|i] eqn:PC.
    + destruct ch as [|l| |].
      * injection H as <-. auto.
      * destruct (a_handle a); injection H as <-; eapply TO; auto; reflexivity.
      * destruct (a_handle a); injection H as <-; [eapply TO; auto; reflexivity|].
        destruct K as (A & B). split; auto. intros x u ti tc [X|X]; [discriminate|eauto].
      * destruct (a_handle a); [injection H as <-; eapply TO; auto; reflexivity|].
        destruct (a_task a) as [[[h d] j]|]; injection H as <-;
          (eapply idx_put; [eauto|eauto|reflexivity| |reflexivity|]; [intros i p X; left; right; exact X|auto]).
        intros e [<-|X]; auto.
    + destruct (i <? max_free)%nat; [destruct (nth i (s_free s) None)|]; injection H as <-; eapply TO; auto; reflexivity.
    + destruct (nth i (s_free s) None) as [h|]; [|injection H as <-; eapply TO; auto; reflexivity].
      destruct (Nat.eqb h g); injection H as <-; eapply TO; auto; reflexivity.
    + destruct (a_handle a) as [g|]; [|discriminate]. destruct (_ || _) in H; [discriminate|]. destruct (_ && _) in H; [discriminate|].
      injection H as <-. eapply TO; [reflexivity|reflexivity|]. intros e [<-|X]; auto.
    + destruct (a_handle a) as [g|]; [|discriminate]. destruct (g_in (s_grp s g)); injection H as <-; eapply TO; auto; reflexivity.
    + destruct (a_handle a) as [g|]; [|discriminate]. injection H as <-; eapply TO; auto; reflexivity.
    + destruct (0 <? n); injection H as <-; eapply TO; auto; reflexivity.
    + destruct (a_handle a) as [g|]; [|discriminate]. destruct (0 <? g_unf (s_grp s g)); [injection H as <-; eapply TO; auto; reflexivity|].
      destruct (g_in (s_grp s g)); [discriminate|]. injection H as <-. eapply TO; [reflexivity|reflexivity|]. intros e [<-|X]; auto.
    + destruct (a_handle a) as [g|]; [|discriminate].
      destruct (unsnoc (g_wait (s_grp s g))) as [[w j]|].
      * destruct w; [destruct (erase g (s_active s)); [|discriminate]|]; injection H as <-; apply ST; reflexivity.
      * destruct (s_active s) eqn:E; [injection H as <-; eapply TO; auto; reflexivity|].
        refine (idx_take _ _ _ _ _ _ _ _ K HN _ _ H); [|lia]. intros h. eexists. split; [reflexivity|]. intros; discriminate.
    + injection H as <-. eapply TO; auto; reflexivity.
    + destruct (i <? max_free)%nat; [destruct (nth i (s_free s) None)|]; injection H as <-; eapply TO; auto; reflexivity.
    + destruct (nth i (s_free s) None); injection H as <-; eapply TO; auto; reflexivity.
  - assert (TO : forall s1 p', s_thr s1 = upd t (FWork i p' :: rest) (s_thr s) -> s_workers s1 = s_workers s -> s_log s1 = s_log s -> idx_ok s1).
    { intros s2 p' T W L. eapply idx_put; [eauto|eauto|exact T| |exact W|rewrite L; auto].
      intros k q [X|X]; [injection X as <- <-; right; exists p; left; reflexivity|left; right; exact X]. }
    assert (IW : (i < s_workers s)%nat) by (apply (proj1 K i p); eapply top_fr; eauto).
    destruct p as [| |g]; cbn [step_work] in H.
    + destruct (0 <? s_sem s); injection H as <-; auto. eapply TO; reflexivity.
    + destruct (s_active s) eqn:E; [injection H as <-; eapply TO; reflexivity|].
      refine (idx_take _ _ _ _ _ _ _ _ K HN _ _ H); [|lia]. intros h. eexists. split; [reflexivity|].
      intros k q X. injection X as <- <-. eauto.
    + injection H as <-. eapply TO; reflexivity.
Qed.

Lemma idx_run sched s s1 : idx_ok s -> run sched s = Ok s1 -> idx_ok s1.
Proof.
  revert s. induction sched as [|[t ch] r IH]; cbn; intros s K H; [injection H as <-; auto|].
  destruct (step s t ch) as [s2| |] eqn:E; try discriminate. apply (IH s2); auto. eapply idx_step; eauto.
Qed.

Lemma idx_init w h : idx_ok (init w h).
Proof.
  split; [|intros x t ti tc []]. intros i p (t & fs & E & HI). apply nth_error_In in E. cbn in E. apply in_app_or in E as [E|E].
  - apply in_map_iff in E as (k & <- & HK). destruct HI as [X|[]]. injection X as <- _. apply in_seq in HK. cbn. lia.
  - apply repeat_spec in E. subst. contradiction.
Qed.
