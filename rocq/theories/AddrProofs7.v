(** The analyses and the conversion to loads and stores, as used by the
    theorems (C58, C59). *)

From Coq Require Import ZArith List Bool Lia.
From Verif Require Import Bits AddrModel AddrSpec AddrProofs AddrProofs2 AddrProofs3 AddrProofs6.
Import ListNotations.
Open Scope Z_scope.

Lemma every_and (A B : exp -> Prop) e : (forall b, every A b e -> every B b e -> every (fun x => A x /\ B x) b e).
Proof.
  assert (G : forall e, (forall b, every A b e -> every B b e -> every (fun x => A x /\ B x) b e) /\
     match e with
     | Insert (Undef _) s 0%nat => every A false s -> every B false s -> every (fun x => A x /\ B x) false s
     | _ => True
     end).
  { clear e. induction e; (split; [intros b; cbn [every]|]);
      try (intros [? _] [? _]; split; [auto|exact Logic.I]; fail); try exact Logic.I.
    - intros [? [? ?]] [? [? ?]]. destruct IHe1, IHe2. repeat split; auto.
    - intros [? ?] [? ?]. destruct IHe. split; auto.
    - intros [? [? ?]] [? [? ?]]. destruct IHe1, IHe2. repeat split; auto.
    - destruct e1; try exact Logic.I. destruct i; [|exact Logic.I]. intros Ha Hb. apply IHe2; assumption.
    - intros [H1 H2] [H3 H4]. split; [auto|]. destruct IHe as [_ IH].
      destruct e; auto. destruct e1; auto. destruct i; auto. }
  apply G.
Qed.

Section Analyses.

Variables (n : nat) (T : nat -> bool * Z) (P : prog) (tr : nat -> env) (e : exp).
Hypothesis HP : well_prog n T P.
Hypothesis Hrun : run P tr.
Hypothesis W : well n T true e.
Hypothesis Sn : sane n P tr e.

Lemma sane_good : good n tr e.
Proof. intro t. apply (Sn t). Qed.

Lemma sane_HG : forall p i, In i (P p) -> good n tr i.
Proof. intros p i H t. apply (proj2 (Sn t) p i H). Qed.

Lemma assumed_nil t : assumed n T tr t [].
Proof. intros ? ? ? ? ? _ []. Qed.

Lemma strict_equal t f : all_equal n P true f e [] = true -> defined (tr t) e -> lanes_equal (tr t) n e.
Proof.
  intros E D.
  exact (proj1 (equal_sound n T P tr Hrun HP sane_HG t f e [] W sane_good (assumed_nil t)) E D).
Qed.

Section Smooth.

Hypothesis Sm : smooth n P tr e.

Lemma sm_good : lgood n tr e.
Proof.
  intro t. pose proof (every_and _ _ e false (proj1 (Sn t)) (proj1 (Sm t))) as H.
  exact H.
Qed.

Lemma sm_HG : forall p i, In i (P p) -> lgood n tr i.
Proof.
  intros p i H t.
  exact (every_and _ _ i false (proj2 (Sn t) p i H) (proj2 (Sm t) p i H)).
Qed.

Lemma strict_linear t f s : 0 < Z.abs s < 128 ->
  is_linear n P true f s e [] = true -> defined (tr t) e -> lanes_linear (tr t) n s e.
Proof.
  intros Hs E D.
  exact (linear_sound n T P tr Hrun HP sm_HG t f s e [] Hs W sm_good (assumed_nil t) E D).
Qed.

End Smooth.

Section NoPhis.

Hypothesis Np : no_phis P e.

Lemma np_every : every (fun x => tame n x /\ no_phi x) false e.
Proof.
  apply every_and; [|apply Np].
  apply (every_impl (fun x => tame n x /\ ors_ok (tr 0%nat) n x)); [tauto|apply (Sn 0%nat)].
Qed.

Lemma np_HN : forall p i, In i (P p) -> every (fun x => tame n x /\ no_phi x) false i.
Proof.
  intros p i H. apply every_and; [|apply (proj2 Np p i H)].
  apply (every_impl (fun x => tame n x /\ ors_ok (tr 0%nat) n x)); [tauto|].
  exact (proj2 (Sn 0%nat) p i H).
Qed.

Lemma code_equal t f : vector_all_equal n P f e = true -> defined (tr t) e -> lanes_equal (tr t) n e.
Proof.
  intro E. apply strict_equal with (f := f). unfold vector_all_equal in E.
  rewrite (proj1 (equal_no_phi n T P HP np_HN f) e [] [] W np_every) in E. exact E.
Qed.

Lemma code_linear t f s : smooth n P tr e -> 0 < Z.abs s < 128 ->
  vector_is_linear n P f s e = true -> defined (tr t) e -> lanes_linear (tr t) n s e.
Proof.
  intros Sm Hs E. apply strict_linear with (f := f); try assumption. unfold vector_is_linear in E.
  rewrite (linear_no_phi n T P HP np_HN f s e [] [] W np_every) in E. exact E.
Qed.

End NoPhis.

End Analyses.

Lemma load_store_cases n P f factored gather on step k :
  match to_load_store n P f factored gather on step k with
  | Kept => True
  | ScalarLoad off => off = full_offsets n factored k /\ gather = true /\ vector_all_equal n P f off = true
  | Vector off => off = full_offsets n factored k /\ vector_is_linear n P f step off = true
  | Reversed off => off = full_offsets n factored k /\ on = true /\ vector_is_linear n P f (- step) off = true
  end.
Proof.
  unfold to_load_store.
  destruct (vector_all_equal n P f (full_offsets n factored k)) eqn:E1.
  - destruct gather; auto.
  - destruct (vector_is_linear n P f step (full_offsets n factored k)) eqn:E2; [auto|].
    destruct (vector_is_linear n P f (- step) (full_offsets n factored k)) eqn:E3; [|exact Logic.I].
    destruct on; auto.
Qed.

Section Conversion.

Variables (n : nat) (T : nat -> bool * Z) (P : prog) (tr : nat -> env) (t f : nat)
  (factored gather on : bool) (step w : Z) (k : call).
Let off := full_offsets n factored k.
Hypothesis Hn : (0 < n)%nat.
Hypothesis HP : well_prog n T P.
Hypothesis Hrun : run P tr.
Hypothesis Np : no_phis P off.
Hypothesis Sn : sane n P tr off.
Hypothesis D : defined (tr t) off.
Hypothesis K : proper n T (tr t) k factored w.

Lemma off_well : well n T true off.
Proof.
  destruct K as [Kb Kv Kwv Kc Kwc Ks Kz Kr Kg]. unfold off, full_offsets. rewrite Kwv.
  assert (0 < w) by (rewrite <- Kwv; eapply well_width; eassumption).
  assert (Dw : well n T true (scale_vec n w (c_scale k))).
  { cbn [scale_vec well]. split; [reflexivity|]. split; [assumption|]. split; [apply repeat_length|].
    apply Forall_forall. intros x X. apply repeat_spec in X. subst x. unfold in_u.
    destruct Kr as [->|[-> _]]; cbn in Ks; cbn; lia. }
  destruct factored; [|destruct (c_scale k =? 1); [assumption|]]; cbn [well width scale_vec] in *;
    tauto.
Qed.

Lemma scalar_load_addr o i : to_load_store n P f factored gather on step k = ScalarLoad o ->
  (i < n)%nat -> call_addr (tr t) k i = one_addr (tr t) k o i.
Proof.
  intros E Hi. pose proof (load_store_cases n P f factored gather on step k) as C. rewrite E in C.
  destruct C as (-> & _ & C). destruct K as [Kb Kv Kwv Kc Kwc Ks Kz Kr Kg].
  eapply equal_addr; try eassumption.
  eapply (code_equal n T P tr off HP Hrun off_well Sn Np t f C D).
Qed.

Hypothesis Sm : smooth n P tr off.
Hypothesis Hstep : 0 < Z.abs step < 128.

Lemma vector_load_addr o i : to_load_store n P f factored gather on step k = Vector o ->
  (i < n)%nat -> call_addr (tr t) k i = vector_addr (tr t) k o step i.
Proof.
  intros E Hi. pose proof (load_store_cases n P f factored gather on step k) as C. rewrite E in C.
  destruct C as (-> & C). destruct K as [Kb Kv Kwv Kc Kwc Ks Kz Kr Kg]. unfold vector_addr.
  eapply linear_addr; try eassumption; [lia|].
  exact (code_linear n T P tr off HP Hrun off_well Sn Np t f step Sm Hstep C D).
Qed.

Lemma reversed_load_addr o i : to_load_store n P f factored gather on step k = Reversed o ->
  (i < n)%nat -> call_addr (tr t) k i = reversed_addr n (tr t) k o step i.
Proof.
  intros E Hi. pose proof (load_store_cases n P f factored gather on step k) as C. rewrite E in C.
  destruct C as (-> & _ & C). destruct K as [Kb Kv Kwv Kc Kwc Ks Kz Kr Kg].
  eapply reversed_ok; try eassumption; [lia|].
  exact (code_linear n T P tr off HP Hrun off_well Sn Np t f (- step) Sm ltac:(lia) C D).
Qed.

End Conversion.
