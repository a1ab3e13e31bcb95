(** With no lane on, code that passes the check runs to its end and has no effect. *)
From Coq Require Import ZArith List Bool Arith Lia.
From Verif Require Import Bits SpmdModel SpmdSpec SpmdRel SpmdGuard SpmdLive SpmdLive2 SpmdLive3.
Import ListNotations.

Definition alloff (w : nat) (c : cx) (st : vst) : Prop :=
  forall l, l < w -> c_fm c l = true -> v_mask st l = false.

Lemma alloff_exec n o c s st out st' :
  vexec n o c s st = Some (out, st') -> alloff (o_width o) c st -> alloff (o_width o) c st'.
Proof.
  intros H A l W F. destruct (vexec_dec _ _ _ _ _ _ _ _ W F H) as (D & _). specialize (A l W F).
  destruct (v_mask st' l); auto. rewrite D in A; auto.
Qed.

Lemma alloff_full w c st : alloff w c st -> m_any w (full c st) = false.
Proof.
  intros A. apply m_any_false. intros l W. unfold full, mand. destruct (c_fm c l) eqn:F; [|apply andb_false_r].
  rewrite A; auto.
Qed.

Fixpoint all_secs (P : stmt -> Prop) (ss : secs) : Prop :=
  match ss with SNil => True | SSec _ b r => P b /\ all_secs P r end.

Lemma suffix_all P ss r : suffix r ss -> all_secs P ss -> all_secs P r.
Proof. induction 1; auto. cbn. intros [_ X]; auto. Qed.

Lemma suffix_guarded fa nr jb jd d ss r :
  suffix r ss -> guarded_secs fa nr false jb jd d ss = true -> guarded_secs fa nr false jb jd d r = true.
Proof. induction 1; auto. cbn [guarded_secs]. intros X. apply andb_prop in X as [_ X]. auto. Qed.

Section OFF.
Variables (o : opts).
Hypothesis (W0 : 0 < o_width o).
Notation w := (o_width o).

Definition Roff (s : stmt) : Prop :=
  forall fa nr jb jd d c st k,
    guarded fa nr false jb jd d s = true -> 0 < d -> (forall dl, jd = Some dl -> dl < d) ->
    wfs k s = true -> (k <> KN -> c_bt c = true) -> (k = KL -> c_ct c = true) ->
    (g_on fa = true -> forall l, l < w -> c_fm c l = true) -> alloff w c st ->
    exists N out st', vexec N o c s st = Some (out, st') /\ v_tr st' = v_tr st.

Lemma after_off jb jd d s : 0 < d -> (forall dl, jd = Some dl -> dl < d) -> after false jb jd d s = false.
Proof.
  intros H J. unfold after. cbn [andb]. rewrite orb_false_r. destruct (d =? 0) eqn:E; [apply Nat.eqb_eq in E; lia|].
  destruct jd as [dl|]; auto. specialize (J dl eq_refl). cbn. apply Nat.eqb_neq. lia.
Qed.

Lemma off_if c sv ma mb ra rb a b st fa nr jd d k :
  Roff a -> Roff b ->
  (ra = true -> guarded fa nr false false jd (S d) a = true) ->
  (rb = true -> guarded fa nr false false jd (S d) b = true) ->
  (forall dl, jd = Some dl -> dl < S d) ->
  wfs k a = true -> wfs k b = true -> (k <> KN -> c_bt c = true) -> (k = KL -> c_ct c = true) ->
  (g_on fa = true -> forall l, l < w -> c_fm c l = true) ->
  (forall l, l < w -> c_fm c l = true -> ma l = false) ->
  (forall l, l < w -> c_fm c l = true -> mb l = false) ->
  exists N out st', vif N o c sv ma mb ra rb a b st = Some (out, st') /\ v_tr st' = v_tr st.
Proof.
  intros Ra Rb Ga Gb HJ Wa Wb B C FA Ma Mb.
  assert (EA : exists N out s1, (if ra then vexec N o (push_if false c) a (set_mask ma st) else Some (VNorm, st)) = Some (out, s1) /\
             v_tr s1 = v_tr st).
  { destruct ra.
    - destruct (Ra fa nr false jd (S d) (push_if false c) (set_mask ma st) k) as (N & out & s1 & E & T); auto; [lia|].
      exists N, out, s1. auto.
    - exists 0, VNorm, st. auto. }
  destruct EA as (N & out & s1 & E & T).
  assert (CASE : out <> VNorm \/ out = VNorm) by (destruct out; auto; left; discriminate).
  destruct CASE as [NN| -> ].
  - exists (S N), out, s1. split; auto. cbn [vif]. rewrite E. destruct out; auto. congruence.
  - assert (EB : exists N out s2, (if rb then vexec N o (push_if false c) b (set_mask mb s1) else Some (VNorm, s1)) = Some (out, s2) /\
             v_tr s2 = v_tr s1).
    { destruct rb.
      - destruct (Rb fa nr false jd (S d) (push_if false c) (set_mask mb s1) k) as (N2 & out & s2 & E2 & T2); auto; [lia|].
        exists N2, out, s2. auto.
      - exists 0, VNorm, s1. auto. }
    destruct EB as (N2 & out & s2 & E2 & T2).
    exists (S (N + N2)). 
    assert (E' : (if ra then vexec (N + N2) o (push_if false c) a (set_mask ma st) else Some (VNorm, st)) = Some (VNorm, s1)).
    { destruct ra; auto. eapply vexec_mono; [|exact E]. lia. }
    assert (E2' : (if rb then vexec (N + N2) o (push_if false c) b (set_mask mb s1) else Some (VNorm, s1)) = Some (out, s2)).
    { destruct rb; auto. eapply vexec_mono; [|exact E2]. lia. }
    cbn [vif]. rewrite E', E2'.
    assert (TE : v_tr (end_if c sv s2) = v_tr s2).
    { unfold end_if, restore_given_returns. destruct (c_cl c || c_bl c); auto. }
    destruct out; do 2 eexists; (split; [reflexivity|]); congruence.
Qed.

Lemma off_run c fa nr jb jd d : 0 < d -> (forall dl, jd = Some dl -> dl < d) ->
  c_bt c = true -> (g_on fa = true -> forall l, l < w -> c_fm c l = true) ->
  forall ss st, all_secs Roff ss -> guarded_secs fa nr false jb jd d ss = true -> wfs_secs KS ss = true ->
  alloff w c st ->
  exists N out st', vrun N o c ss st = Some (out, st') /\ v_tr st' = v_tr st.
Proof.
  intros Hd HJ BT FA. induction ss as [|lb b r IH]; intros st HA HG HW OFF.
  - exists 1, VNorm, st. auto.
  - cbn [all_secs guarded_secs wfs_secs] in *. destruct HA as [Rb HA]. andbs. rewrite ?andb_false_l in *.
    destruct (Rb fa nr jb jd d c st KS) as (N & out & s1 & E & T); auto; try discriminate.
    assert (CASE : out <> VNorm \/ out = VNorm) by (destruct out; auto; left; discriminate).
    destruct CASE as [NN| -> ].
    + exists (S N), out, s1. split; auto. cbn [vrun]. rewrite E. destruct out; auto. congruence.
    + destruct (IH s1) as (N2 & out & s2 & E2 & T2); auto; [eapply alloff_exec; eauto|].
      exists (S (N + N2)), out, s2. split; [|congruence]. cbn [vrun].
      rewrite (vexec_mono N (N + N2) _ _ _ _ _ ltac:(lia) E). eapply vrun_mono; [|exact E2]. lia.
Qed.

Lemma off_secs c fa nr d sv v cs : 0 < d ->
  c_bt c = true -> (g_on fa = true -> forall l, l < w -> c_fm c l = true) ->
  (forall l, l < w -> c_fm c l = true -> sv l = false) ->
  forall ss st, all_secs Roff ss -> guarded_vsecs fa nr d ss = true -> wfs_secs KS ss = true ->
  alloff w c st ->
  exists N out st', vsecs N o c sv v cs ss st = Some (out, st') /\ v_tr st' = v_tr st.
Proof.
  intros Hd BT FA SV. induction ss as [|lb b r IH]; intros st HA HG HW OFF.
  - exists 1, VNorm, st. auto.
  - cbn [all_secs guarded_vsecs wfs_secs] in *. destruct HA as [Rb HA]. andbs.
    set (m := mor (v_mask st) (mand sv (fun l => label_matches cs lb (v l)))).
    assert (OFF1 : alloff w c (set_mask m st)).
    { intros l W F. cbn. unfold m, mor, mand. rewrite OFF, SV; auto. }
    destruct (check_mask o b && negb (m_any w m)) eqn:CK.
    + destruct (IH (set_mask m st)) as (N2 & out & s2 & E2 & T2); auto.
      exists (S N2), out, s2. split; auto. cbn [vsecs]. cbv zeta. fold m. rewrite CK. exact E2.
    + assert (NE : g_on fa && negb (safe b) = false).
      { destruct (g_on fa); auto. cbn [andb]. unfold check_mask in CK. destruct (safe b); auto. rewrite orb_true_r in CK. cbn [andb] in CK.
        apply negb_false_iff in CK. rewrite m_any_true in CK. destruct CK as (l & W & X).
        pose proof (OFF1 l W (FA eq_refl l W)) as Y. cbn in Y. congruence. }
      rewrite NE in *.
      destruct (Rb fa nr false None d c (set_mask m st) KS) as (N & out & s1 & E & T); auto; try discriminate.
      assert (CASE : out <> VNorm \/ out = VNorm) by (destruct out; auto; left; discriminate).
      destruct CASE as [NN| -> ].
      * exists (S N), out, s1. split; auto. cbn [vsecs]. cbv zeta. fold m. rewrite CK, E. destruct out; auto. congruence.
      * destruct (IH s1) as (N2 & out & s2 & E2 & T2); auto; [eapply alloff_exec; eauto|].
        exists (S (N + N2)), out, s2. split; [|rewrite T2; exact T]. cbn [vsecs]. cbv zeta. fold m. rewrite CK.
        rewrite (vexec_mono N (N + N2) _ _ _ _ _ ltac:(lia) E). eapply vsecs_mono; [|exact E2]. lia.
Qed.

Lemma off_runs : (forall s, Roff s) /\ (forall ss, all_secs Roff ss).
Proof.
  apply stmt_secs_ind2; cbn [all_secs]; auto; unfold Roff at 1.
  - intros. exists 1, VNorm, st. auto.
  - (* seq *) intros a Ra b Rb fa nr jb jd d c st k G Hd HJ Wf B C FA OFF. cbn [guarded wfs] in *. andbs.
    rewrite after_off in * by auto.
    destruct (Ra fa nr jb jd d c st k) as (N & out & s1 & E & T); auto.
    assert (CASE : out <> VNorm \/ out = VNorm) by (destruct out; auto; left; discriminate).
    destruct CASE as [NN| -> ].
    + exists (S N), out, s1. split; auto. rewrite vexec_eq, E. destruct out; auto. congruence.
    + destruct (Rb fa nr jb jd d c s1 k) as (N2 & out & s2 & E2 & T2); auto; [eapply alloff_exec; eauto|].
      exists (S (N + N2)), out, s2. split; [|congruence]. rewrite vexec_eq.
      rewrite (vexec_mono N (N + N2) _ _ _ _ _ ltac:(lia) E). eapply vexec_mono; [|exact E2]. lia.
  - intros. exists 1. do 2 eexists. split; [reflexivity|]. auto.
  - intros. exists 1. do 2 eexists. split; [reflexivity|]. auto.
  - intros. exists 1. do 2 eexists. split; [reflexivity|]. destruct x; auto.
  - intros. exists 1. do 2 eexists. split; [reflexivity|]. auto.
  - intros. discriminate.
  - (* if *) intros coh t a Ra b Rb fa nr jb jd d c st k G Hd HJ Wf B C FA OFF. cbn [wfs] in Wf. andbs.
    destruct t as [e|e]; cbn [guarded] in G; cbv zeta in G; andbs.
    + destruct (is_true (ueval (v_U st) e)) eqn:ET.
      * destruct (Ra fa nr jb jd d (push_if true c) st k) as (N & out & s1 & E & T); auto.
        exists (S N), out, s1. split; auto. rewrite vexec_eq, ET. auto.
      * destruct (Rb fa nr jb jd d (push_if true c) st k) as (N & out & s1 & E & T); auto.
        exists (S N), out, s1. split; auto. rewrite vexec_eq, ET. auto.
    + assert (HJ' : forall dl, jd = Some dl -> dl < S d) by (intros dl X; specialize (HJ dl X); lia).
      set (t := fun l => is_true (xeval st l e)).
      assert (MIX : exists N out st', vif_mixed N o c (v_mask st) t a b st = Some (out, st') /\ v_tr st' = v_tr st).
      { assert (X : forall m, m_any w (mand (mand (v_mask st) m) (c_fm c)) = false).
        { intros m. apply m_any_false. intros l W. unfold mand. destruct (c_fm c l) eqn:F; [|apply andb_false_r]. rewrite OFF; auto. }
        destruct (off_if c (v_mask st) (mand (v_mask st) t) (mand (v_mask st) (mnot t)) false false a b st fa nr jd d k)
          as (N & out & s1 & E & T); auto; try discriminate;
          try (intros l W F; unfold mand; rewrite OFF; auto).
        exists (S N), out, s1. split; auto. cbn [vif_mixed]. cbv zeta. rewrite !X. exact E. }
      destruct coh.
      * assert (NA : m_all w (full c st) = false).
        { destruct (m_all w (full c st)) eqn:X; auto. rewrite m_all_true in X. specialize (X 0 W0).
          unfold full, mand in X. apply andb_prop in X as [X Y]. rewrite OFF in X; auto. }
        destruct MIX as (N & out & s1 & E & T). exists (S N), out, s1. split; auto.
        rewrite vexec_eq. cbv zeta. rewrite NA. exact E.
      * destruct (predicated o a b) eqn:P.
        -- cbn [orb] in *. unfold predicated in P. apply andb_prop in P as [P _]. rewrite P in *. cbn [negb] in *.
           destruct (off_if c (v_mask st) (mand (v_mask st) t) (mand (v_mask st) (mnot t)) true true a b st fa nr jd d k)
             as (N & out & s1 & E & T); auto;
             try (intros l W F; unfold mand; rewrite OFF; auto).
           assert (PP : predicated o a b = true \/ predicated o a b = false) by (destruct (predicated o a b); auto).
           destruct PP as [PP|PP].
           ++ exists (S N), out, s1. split; auto. rewrite vexec_eq. cbv zeta. rewrite PP. exact E.
           ++ destruct MIX as (N2 & out2 & s2 & E2 & T2). exists (S N2), out2, s2. split; auto.
              rewrite vexec_eq. cbv zeta. rewrite PP. exact E2.
        -- destruct MIX as (N & out & s1 & E & T). exists (S N), out, s1. split; auto.
           rewrite vexec_eq. cbv zeta. rewrite P. exact E.
  - (* do *) intros coh body Rb t fa nr jb jd d c st k G Hd HJ Wf B C FA OFF. cbn [guarded wfs] in *.
    destruct (uniform_cf t body) eqn:U; [discriminate G|]. rewrite andb_false_r in G. cbn [jdof] in G.
    set (c1 := push_loop false c). set (st0 := set_bc all_off all_off st).
    assert (CL1 : c_cl c1 = true /\ c_bl c1 = true) by (cbn; auto). destruct CL1 as [CL1 BL1].
    set (c2 := set_be (full c1 st0) c1).
    assert (NA : coh && negb false && m_all w (full c1 st0) = false).
    { destruct coh; auto. cbn [andb negb]. destruct (m_all w (full c1 st0)) eqn:X; auto. rewrite m_all_true in X. specialize (X 0 W0).
      unfold full, mand in X. apply andb_prop in X as [X Y]. change (v_mask st 0 = true) in X. rewrite OFF in X; auto. }
    destruct (Rb fa nr true None (S d) c2 st0 KL) as (N & out & s1 & E & T); auto; try discriminate; try lia.
    assert (OFF1 : alloff w c s1) by exact (alloff_exec _ _ c2 _ st0 _ _ E OFF).
    assert (CN1 : forall l, l < w -> c_fm c l = true -> v_cnt s1 l = false).
    { intros l W F. destruct (vexec_dec _ _ c2 _ _ _ _ l W F E) as (_ & _ & D). destruct (v_cnt s1 l); auto.
      destruct (D eq_refl) as [X|X]; [discriminate|]. change (v_mask st l = true) in X. rewrite OFF in X; auto. }
    assert (TOP : vtop 1 o c1 false coh t SSkip body (restore_continued c1 s1) =
                  Some (VNorm, set_mask (mand (v_mask (restore_continued c1 s1)) (teval (restore_continued c1 s1) t)) (restore_continued c1 s1))).
    { cbn [vtop]. cbv zeta. rewrite alloff_full; auto. intros l W F. cbn. unfold mand, mor. rewrite OFF1, CN1; auto. }
    assert (TB : exists out' s2, vbody (S (S N)) o c1 false coh t SSkip body st0 = Some (out', s2) /\ v_tr s2 = v_tr st).
    { cbn [vbody]. cbv zeta. rewrite NA. fold c2. rewrite (vexec_mono N (S N) _ _ _ _ _ ltac:(lia) E).
      assert (ST : match vexec (S N) o c2 SSkip (restore_continued c1 s1) with
           | Some (VNorm, st3) => vtop (S N) o c1 false coh t SSkip body st3
           | Some (VBrk, st3) => Some (VBrk, st3) | Some (VCont, st3) => Some (VCont, st3) | Some (VRet, st3) => Some (VRet, st3)
           | None => None end = Some (VNorm, set_mask (mand (v_mask (restore_continued c1 s1)) (teval (restore_continued c1 s1) t)) (restore_continued c1 s1))).
      { rewrite vexec_eq. eapply vtop_mono; [|exact TOP]. lia. }
      destruct out; try (do 2 eexists; (split; [reflexivity|exact T])); rewrite ST; do 2 eexists; (split; [reflexivity|]); exact T. }
    destruct TB as (out' & s2 & EB & T2). exists (S (S (S N))). rewrite vexec_eq. cbv zeta. rewrite U. fold c1. fold st0. rewrite EB.
    destruct out'; do 2 eexists; (split; [reflexivity|]); auto.
  - (* for *) intros coh i Ri t step Rs body Rb fa nr jb jd d c st k G Hd HJ Wf B C FA OFF. cbn [guarded wfs] in *.
    destruct (uniform_cf t body) eqn:U; [discriminate G|]. andbs.
    set (c1 := push_loop false c). set (st0 := set_bc all_off all_off st).
    destruct (Ri fa nr true None (S d) c1 st0 KN) as (N & out & s1 & E & T); auto; try discriminate; try congruence; try lia.
    assert (OFF1 : alloff w c s1) by exact (alloff_exec _ _ c1 _ st0 _ _ E OFF).
    assert (CASE : out <> VNorm \/ out = VNorm) by (destruct out; auto; left; discriminate).
    destruct CASE as [NN| -> ].
    + exists (S N), out, s1. split; auto. rewrite vexec_eq. cbv zeta. rewrite U. fold c1 st0. rewrite E. destruct out; auto. congruence.
    + assert (TOP : vtop 1 o c1 false coh t step body s1 = Some (VNorm, set_mask (mand (v_mask s1) (teval s1 t)) s1)).
      { cbn [vtop]. cbv zeta. rewrite alloff_full; auto. intros l W F. cbn. unfold mand. rewrite OFF1; auto. }
      exists (S (S N)), VNorm, (end_loop false st (set_mask (mand (v_mask s1) (teval s1 t)) s1)). split; [|exact T].
      rewrite vexec_eq. cbv zeta. rewrite U. fold c1 st0.
      rewrite (vexec_mono N (S N) _ _ _ _ _ ltac:(lia) E).
      rewrite (vtop_mono 1 (S N) _ _ _ _ _ _ _ _ _ ltac:(lia) TOP). reflexivity.
  - (* switch *) intros t ss Rs fa nr jb jd d c st k G Hd HJ Wf B C FA OFF. cbn [wfs] in Wf.
    destruct t as [e|e].
    + change ((if uniform_cf_switch (TU e) ss then guarded_secs fa nr false true None d ss
      else guarded_secs fa nr false true (jdof (nr && false) (S d)) (S d) ss) = true) in G.
      set (u := uniform_cf_switch (TU e) ss) in *.
      assert (ER : exists N out s1, vrun N o (push_switch u true (full c st) c) (scalar_target (ueval (v_U st) e) ss)
                 (set_bc all_off all_off st) = Some (out, s1) /\ v_tr s1 = v_tr st).
      { rewrite andb_false_r in G. cbn [jdof] in G.
        destruct u; [refine (off_run (push_switch true true (full c st) c) fa nr true None d _ _ _ _ _ (set_bc all_off all_off st) _ _ _ _)|
                     refine (off_run (push_switch false true (full c st) c) fa nr true None (S d) _ _ _ _ _ (set_bc all_off all_off st) _ _ _ _)]; auto; try lia; try discriminate.
        - eapply suffix_all; [apply scalar_target_suffix|auto].
        - eapply suffix_guarded; [apply scalar_target_suffix|auto].
        - eapply suffix_wfs; [apply scalar_target_suffix|auto].
        - eapply suffix_all; [apply scalar_target_suffix|auto].
        - eapply suffix_guarded; [apply scalar_target_suffix|auto].
        - eapply suffix_wfs; [apply scalar_target_suffix|auto]. }
      destruct ER as (N & out & s1 & E & T). exists (S N). rewrite vexec_eq. cbv zeta. fold u. rewrite E.
      destruct out; do 2 eexists; (split; [reflexivity|]); auto; destruct u; auto.
    + change (guarded_vsecs fa nr (S d) ss = true) in G.
      set (u := uniform_cf_switch (TV e) ss) in *.
      destruct (off_secs (push_switch u false (full c st) c) fa nr (S d) (v_mask st) (fun l => xeval st l e) (case_values ss)) with
        (ss := ss) (st := set_mask all_off (set_bc all_off all_off st)) as (N & out & s1 & E & T); auto; try lia; try (intros l W F; reflexivity).
      exists (S N). rewrite vexec_eq. cbv zeta. change u with false in E. rewrite E.
      destruct out; do 2 eexists; (split; [reflexivity|]); auto.
  - (* break *) intros fa nr jb jd d c st k G Hd HJ Wf B C FA OFF. cbn [wfs] in Wf.
    assert (BT : c_bt c = true) by (apply B; destruct k; congruence).
    exists 1. cbn [vexec]. unfold do_break. rewrite BT. cbn [negb].
    repeat match goal with |- context [if ?x then _ else _] => destruct x end; do 2 eexists; (split; [reflexivity|auto]).
  - (* continue *) intros fa nr jb jd d c st k G Hd HJ Wf B C FA OFF. cbn [wfs] in Wf.
    assert (CT : c_ct c = true) by (apply C; destruct k; congruence).
    exists 1. cbn [vexec]. unfold do_continue. rewrite CT. cbn [negb].
    repeat match goal with |- context [if ?x then _ else _] => destruct x end; do 2 eexists; (split; [reflexivity|auto]).
  - (* return *) intros e fa nr jb jd d c st k G Hd HJ Wf B C FA OFF.
    exists 1. cbn [vexec]. unfold do_return. cbv zeta.
    repeat match goal with |- context [if ?x then _ else _] => destruct x end; do 2 eexists; (split; [reflexivity|auto]).
  - intros. discriminate.
Qed.
End OFF.
