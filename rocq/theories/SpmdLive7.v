(** Switches, calls, and the liveness theorem. *)
From Coq Require Import ZArith List Bool Arith Lia.
From Verif Require Import Bits SpmdModel SpmdSpec SpmdRel SpmdProofs SpmdIf SpmdLoop SpmdSwitch SpmdMain SpmdCall.
From Verif Require Import SpmdGuard SpmdLive SpmdLive2 SpmdLive3 SpmdLive4 SpmdLive5 SpmdLive6.
Import ListNotations.

(** ** Switch on a scalar *)

Lemma suffix_guarded2 fa nr jb jd d ss r : suffix r ss -> forall ne, guarded_secs fa nr ne jb jd d ss = true ->
  exists ne', (ne' = true -> ne = true) /\ guarded_secs fa nr ne' jb jd d r = true.
Proof.
  induction 1 as [|lb b r ss HS IH]; intros ne G; [eauto|].
  change (guarded fa nr ne jb jd d b && guarded_secs fa nr (ne && after ne jb jd d b) jb jd d r = true) in G.
  apply andb_prop in G as [_ G]. destruct (IH _ G) as (ne' & A & B). exists ne'. split; auto.
  intros X. apply A in X. apply andb_prop in X. tauto.
Qed.

Lemma suffix_chk dv du K d F D ss r : suffix r ss -> chk_secs dv du K d F D ss = true -> chk_secs dv du K d F D r = true.
Proof. induction 1; auto. rewrite chk_secs_cons. intros X. apply andb_prop in X as [_ X]. auto. Qed.

Lemma lrun_sec n fs l lb b r s : lrun n fs l (SSec lb b r) s <> None ->
  lexec n fs l b s <> None /\ (forall m s', lexec m fs l b s = Some (LNorm, s') -> lrun n fs l r s' <> None).
Proof.
  destruct n as [|n]; intros H; [exfalso; apply H; reflexivity|]. cbn [lrun] in H.
  destruct (lexec n fs l b s) as [[o s1]|] eqn:E; [|congruence]. split.
  - rewrite (lexec_mono n (S n) _ _ _ _ _ (Nat.le_succ_diag_r n) E). discriminate.
  - intros m s' E'. pose proof (lexec_det _ _ _ _ _ _ _ _ E E') as X. injection X as -> ->.
    destruct (lrun n fs l r s') eqn:E2; [|congruence]. rewrite (lrun_S _ _ _ _ _ _ E2). discriminate.
Qed.

Lemma Rrun o n : prog_ok (o_funs o) = true -> Rexec o n ->
  forall ss dv du k d F D c st fa nr ne jb jd,
    closed o fa -> chk_secs dv du (Some k) d F D ss = true -> ctxrel dv (Some k) d c -> kcond dv du d F (Some k) ->
    kscope (Some k) D -> scope_ok dv du d D -> inv (o_width o) (Some k) d c st ->
    guarded_secs fa nr ne jb jd d ss = true -> flg (o_width o) fa nr jb jd (Some k) c st ->
    (nr = true -> mret_secs (0 <? d) ss = false) -> (ne = true -> some (o_width o) c st) -> live (o_width o) (v_tr st) ->
    lanes (o_width o) D c st (fun l s0 => lrun n (o_funs o) l ss s0 <> None) ->
    ends (o_width o) (fun N => vrun N o c ss st).
Proof.
  intros HP IHe ss. induction ss as [|lb b r IH]; intros dv du k d F D c st fa nr ne jb jd HCL HC HX HK HKS HO HI HG HF HM HN LV LN.
  - exists 1, VNorm, st. split; auto.
  - rewrite chk_secs_cons in HC. apply andb_prop in HC as [HC1 HC2].
    destruct (chk dv du (Some k) d F D b) as [D1|] eqn:EC; [|discriminate HC1].
    change (guarded fa nr ne jb jd d b && guarded_secs fa nr (ne && after ne jb jd d b) jb jd d r = true) in HG.
    apply andb_prop in HG as [G1 G2].
    assert (M1 : nr = true -> mret (0 <? d) b = false).
    { intros E. specialize (HM E). cbn [mret_secs] in HM. apply orb_false_elim in HM. tauto. }
    assert (M2 : nr = true -> mret_secs (0 <? d) r = false).
    { intros E. specialize (HM E). cbn [mret_secs] in HM. apply orb_false_elim in HM. tauto. }
    destruct (IHe dv du (Some k) d F D D1 c b st fa nr ne jb jd HCL EC HX HK HKS HO HI G1 HF M1 HN LV) as (N1 & out1 & st1 & E1 & L1).
    { intros l W Fm M. destruct (LN l W Fm M) as (s0 & A & X). exists s0. split; auto. apply (lrun_sec _ _ _ _ _ _ _ X). }
    destruct (match out1 with VNorm => true | _ => false end) eqn:ON.
    2:{ exists (S N1), out1, st1. split; auto. cbn [vrun]. rewrite E1. destruct out1; auto; discriminate. }
    assert (out1 = VNorm) by (destruct out1; auto; discriminate). subst out1. clear ON.
    pose proof (proj1 (simulation o HP N1) dv du (Some k) d F D D1 c b st VNorm st1 E1 EC HX HK HKS HO HI) as P.
    assert (HI1 : inv (o_width o) (Some k) d c st1) by (apply P; auto).
    assert (HF1 : flg (o_width o) fa nr jb jd (Some k) c st1).
    { eapply flg_exec; eauto. eapply jd_le; eauto. }
    destruct (IH dv du k d F D c st1 fa nr (ne && after ne jb jd d b) jb jd HCL HC2 HX HK HKS HO HI1 G2 HF1 M2) as (N2 & out2 & st2 & E2 & L2); auto.
    { intros E. apply andb_prop in E as [E X]. eapply after_ok; eauto. }
    { assert (LL : lanes (o_width o) D1 c st1 (fun l s0 => lrun n (o_funs o) l r s0 <> None)).
      { eapply lanes_next; eauto. intros l s0 s1 Q E. apply (lrun_sec _ _ _ _ _ _ _ Q) in E. auto. }
      intros l W Fm M. destruct (LL l W Fm M) as (s0 & A & X). exists s0. split; auto.
      eapply agree_le; [|exact A]. eapply chk_le; eauto. }
    exists (S (N1 + N2)), out2, st2. split; auto. cbn [vrun]. rewrite (vexec_mono N1 (N1 + N2) _ _ _ _ _ (Nat.le_add_r _ _) E1).
    eapply vrun_mono; [|exact E2]. lia.
Qed.

(** ** Switch on a varying value *)

Lemma Rsecs o n : prog_ok (o_funs o) = true -> Rexec o n ->
  forall ss dv du k d F D c saved v cases st fa nr,
    closed o fa -> chk_secs dv du (Some k) d F D ss = true -> uniq cases ss -> k_sc k = false -> k_loop k = false ->
    ctxrel dv (Some k) d c -> kcond dv du d F (Some k) -> kscope (Some k) D -> scope_ok dv du d D ->
    scope_pres dv du d F D -> 0 < d -> inv (o_width o) (Some k) d c st ->
    (forall l, l < o_width o -> c_fm c l = true -> waiting saved v cases ss l = true ->
       v_mask st l = false /\ v_brk st l = false /\ v_cnt st l = false /\ v_ret st l = false /\ c_be c l = true) ->
    guarded_vsecs fa nr d ss = true -> flg (o_width o) fa nr false None (Some k) c st ->
    (nr = true -> mret_secs true ss = false) -> live (o_width o) (v_tr st) ->
    lanes (o_width o) D c st (fun l s0 => lrun n (o_funs o) l ss s0 <> None) ->
    (forall l, l < o_width o -> c_fm c l = true -> waiting saved v cases ss l = true ->
       exists s0, agree l D st s0 /\ lrun n (o_funs o) l (target cases (v l) ss) s0 <> None) ->
    ends (o_width o) (fun N => vsecs N o c saved v cases ss st).
Proof.
  intros HPK IHe ss.
  induction ss as [|lb body r IH]; intros dv du k d F D c saved v cases st fa nr HCL HC HU KS KL HX HK HKS HO HP H0 HI HW HG HF HM LV LN LW.
  - exists 1, VNorm, st. split; auto.
  - rewrite chk_secs_cons in HC. apply andb_prop in HC as [HC1 HC2].
    destruct (chk dv du (Some k) d F D body) as [D1|] eqn:EC; [|discriminate HC1].
    cbn [uniq] in HU. destruct HU as [HU1 HU2].
    change (guarded fa nr (g_on fa && negb (safe body)) false None d body && guarded_vsecs fa nr d r = true) in HG.
    apply andb_prop in HG as [G1 G2].
    assert (D0 : 0 <? d = true) by (apply Nat.ltb_lt; auto).
    assert (M1 : nr = true -> mret (0 <? d) body = false).
    { intros E. specialize (HM E). cbn [mret_secs] in HM. apply orb_false_elim in HM. rewrite D0. tauto. }
    assert (M2 : nr = true -> mret_secs true r = false).
    { intros E. specialize (HM E). cbn [mret_secs] in HM. apply orb_false_elim in HM. tauto. }
    set (m := mor (v_mask st) (mand saved (fun l => label_matches cases lb (v l)))) in *.
    set (st1 := set_mask m st) in *.
    assert (CL : forall l, l < o_width o -> c_fm c l = true ->
        (v_mask st l = true /\ m l = true /\ waiting saved v cases (SSec lb body r) l = false /\ waiting saved v cases r l = false) \/
        (v_mask st l = false /\ m l = true /\ waiting saved v cases (SSec lb body r) l = true /\ waiting saved v cases r l = false /\
         target cases (v l) (SSec lb body r) = SSec lb body r) \/
        (v_mask st l = false /\ m l = false /\ waiting saved v cases (SSec lb body r) l = true /\ waiting saved v cases r l = true /\
         target cases (v l) (SSec lb body r) = target cases (v l) r) \/
        (v_mask st l = false /\ m l = false /\ waiting saved v cases (SSec lb body r) l = false /\ waiting saved v cases r l = false)).
    { intros l Hl Hf. specialize (HW l Hl Hf). specialize (HU1 (v l)).
      unfold waiting, m, mor, mand, target in *. cbn [matches_some sections_from] in *.
      destruct (v_mask st l), (saved l), (label_matches cases lb (v l)), (matches_some cases (v l) r); cbn in *;
        try (destruct (HW eq_refl) as (X & _); discriminate X);
        try (specialize (HU1 eq_refl); discriminate HU1); auto 10. }
    assert (HI1 : inv (o_width o) (Some k) d c st1).
    { intros l Hl Hf. destruct (HI l Hl Hf) as ((B1 & B2) & W2 & W3 & W4). specialize (HW l Hl Hf).
      assert (X : m l = true -> v_brk st l = false /\ v_cnt st l = false /\ v_ret st l = false /\ c_be c l = true).
      { destruct (CL l Hl Hf) as [(A1 & A2 & A3 & A4)|[(A1 & A2 & A3 & A4 & A5)|[(A1 & A2 & _)|(A1 & A2 & _)]]];
          try congruence; intros _.
        - destruct (B1 A1) as (Z1 & Z2 & Z3); auto.
        - destruct (HW A3) as (_ & Z); tauto. }
      split; [split|split].
      - cbn. intros Y. destruct (X Y) as (Z1 & Z2 & Z3 & _); auto.
      - exact B2.
      - lia.
      - split; [intros Y; apply X; exact Y|]. rewrite KS, KL. discriminate. }
    assert (HF1 : flg (o_width o) fa nr false None (Some k) c st1).
    { eapply flg_none; [exact HF|reflexivity|reflexivity|apply jok_false]. }
    (* the lanes that run this section *)
    assert (RUN : forall l, l < o_width o -> c_fm c l = true -> m l = true ->
              exists s0, agree l D st s0 /\ lrun n (o_funs o) l (SSec lb body r) s0 <> None).
    { intros l W Fm M.
      destruct (CL l W Fm) as [(A1 & A2 & A3 & A4)|[(A1 & A2 & A3 & A4 & A5)|[(A1 & A2 & A3 & A4 & A5)|(A1 & A2 & A3 & A4)]]]; try congruence.
      - exact (LN l W Fm A1).
      - destruct (LW l W Fm A3) as (s0 & A & X). rewrite A5 in X. eauto. }
    assert (WAIT : forall l, l < o_width o -> c_fm c l = true -> waiting saved v cases r l = true ->
              m l = false /\ waiting saved v cases (SSec lb body r) l = true /\
              target cases (v l) (SSec lb body r) = target cases (v l) r).
    { intros l W Fm M.
      destruct (CL l W Fm) as [(A1 & A2 & A3 & A4)|[(A1 & A2 & A3 & A4 & A5)|[(A1 & A2 & A3 & A4 & A5)|(A1 & A2 & A3 & A4)]]]; try congruence.
      auto. }
    destruct (check_mask o body && negb (m_any (o_width o) m)) eqn:ECK.
    + pose proof ECK as ECK'. apply andb_prop in ECK' as [_ EM]. apply negb_true_iff in EM. rewrite m_any_false in EM.
      destruct (IH dv du k d F D c saved v cases st1 fa nr HCL HC2 HU2 KS KL HX HK HKS HO HP H0 HI1) as (N & out & st' & E & L); auto.
      * intros l W Fm Wt. destruct (WAIT l W Fm Wt) as (A1 & A2 & _). split; auto. apply (HW l W Fm A2).
      * intros l W Fm M. cbn in M. rewrite EM in M; auto. discriminate.
      * intros l W Fm Wt. destruct (WAIT l W Fm Wt) as (A1 & A2 & A3). destruct (LW l W Fm A2) as (s0 & A & X).
        rewrite A3 in X. exists s0. auto.
      * exists (S N), out, st'. split; auto. cbn [vsecs]. fold m. fold st1. rewrite ECK. auto.
    + destruct (IHe dv du (Some k) d F D D1 c body st1 fa nr (g_on fa && negb (safe body)) false None HCL EC HX HK HKS HO HI1 G1 HF1 M1)
        as (N1 & out1 & st2 & E1 & L1); auto.
      { intros E. apply andb_prop in E as [E1 E2]. assert (X : m_any (o_width o) m = true).
        { destruct (m_any (o_width o) m); auto. unfold check_mask in ECK. rewrite E2, orb_true_r in ECK. discriminate. }
        apply m_any_true in X as (l & W & M). exists l. split; auto. split; [destruct HF as (HFa & _); apply HFa; auto|exact M]. }
      { intros l W Fm M. destruct (RUN l W Fm M) as (s0 & A & X). exists s0. split; auto. apply (lrun_sec _ _ _ _ _ _ _ X). }
      destruct (match out1 with VNorm => true | _ => false end) eqn:ON.
      2:{ exists (S N1), out1, st2. split; auto. cbn [vsecs]. fold m. fold st1. rewrite ECK, E1. destruct out1; auto; discriminate. }
      assert (out1 = VNorm) by (destruct out1; auto; discriminate). subst out1. clear ON.
      pose proof (proj1 (simulation o HPK N1) dv du (Some k) d F D D1 c body st1 VNorm st2 E1 EC HX HK HKS HO HI1) as P.
      pose proof P as (U & _ & Fr & Ac & I2 & _).
      assert (HI2 : inv (o_width o) (Some k) d c st2) by (apply I2; auto).
      assert (HF2 : flg (o_width o) fa nr false None (Some k) c st2).
      { destruct HX as (_ & VD & _). eapply flg_exec0; [exact E1|exact VD|exact M1|exact HF1]. }
      destruct (IH dv du k d F D c saved v cases st2 fa nr HCL HC2 HU2 KS KL HX HK HKS HO HP H0 HI2) as (N2 & out2 & st3 & E2 & L2); auto.
      * intros l W Fm Wt. destruct (WAIT l W Fm Wt) as (A1 & A2 & _). destruct (HW l W Fm A2) as (Z0 & Z1 & Z2 & Z3 & Z4).
        destruct (Fr l W Fm A1) as (M & P1 & P2 & P3 & _). cbn in P1, P2, P3. repeat split; congruence.
      * intros l W Fm M. destruct (vexec_dec _ _ _ _ _ _ _ _ W Fm E1) as (MD & _). specialize (MD M).
        destruct (RUN l W Fm MD) as (s0 & A & X). destruct (Ac l W Fm MD s0 A) as (ol & s1 & EL & O).
        cbn [outrel] in O. destruct O as [(-> & _ & A1)|[M1' _]]; [|congruence].
        exists s1. split; [eapply agree_le; [|exact A1]; eapply chk_le; eauto|].
        apply (proj2 (lrun_sec _ _ _ _ _ _ _ X) _ _ EL).
      * intros l W Fm Wt. destruct (WAIT l W Fm Wt) as (A1 & A2 & A3). destruct (LW l W Fm A2) as (s0 & A & X).
        rewrite A3 in X. exists s0. split; auto. destruct (Fr l W Fm A1) as (M & FF).
        eapply agree_frame; [exact FF|exact U|exact HP|exact A].
      * exists (S (N1 + N2)), out2, st3. split; auto. cbn [vsecs]. fold m. fold st1. rewrite ECK.
        rewrite (vexec_mono N1 (N1 + N2) _ _ _ _ _ (Nat.le_add_r _ _) E1). eapply vsecs_mono; [|exact E2]. lia.
Qed.

(** ** All statements *)

Lemma guarded_prog_closed ok on o : guarded_prog ok (o_funs o) = true -> closed o {| g_on := on; g_ok := ok |}.
Proof.
  unfold guarded_prog. rewrite forallb_forall. intros H f fd O E. cbn in *.
  assert (X : In f (seq 0 (length (o_funs o)))).
  { apply in_seq. split; [lia|]. cbn. apply nth_error_Some. congruence. }
  specialize (H f X). rewrite O, E in H. exact H.
Qed.

Lemma live_app w tr k ev : live w tr -> (exists l, l < w /\ ev l <> None) -> live w (tr ++ [(k, ev)]).
Proof.
  intros H X k' ev' I. apply in_app_or in I as [I|[I|[]]]; [eauto|]. injection I as <- <-. auto.
Qed.

Lemma m_all_false w m : m_all w m = false -> exists l, l < w /\ m l = false.
Proof.
  intros H. destruct (m_any w (mnot m)) eqn:E.
  - apply m_any_true in E as (l & W & X). exists l. split; auto. apply negb_true_iff; auto.
  - exfalso. rewrite m_any_false in E. assert (X : m_all w m = true); [|congruence].
    apply m_all_true. intros l W. specialize (E l W). unfold mnot in E. apply negb_false_iff; auto.
Qed.

(** The callee. *)
Lemma Rfun o n fd fm U V G tr fa :
  prog_ok (o_funs o) = true -> Rexec o n -> closed o fa -> chk_fun fd = true -> guarded_fun fa fd = true ->
  (g_on fa = true -> forall l, l < o_width o -> fm l = true) ->
  (exists l, l < o_width o /\ fm l = true) -> live (o_width o) tr ->
  let st := {| v_mask := all_on; v_ret := all_off; v_brk := all_off; v_cnt := all_off; v_V := V; v_U := U;
               v_G := G; v_rv := fun _ => 0%Z; v_tr := tr |} in
  (forall l, l < o_width o -> fm l = true -> exists s0, agreeG l st s0 /\ (forall x, V x l = l_V s0 x) /\
      (forall u, U u = l_U s0 u) /\ lexec n (o_funs o) l (f_body fd) s0 <> None) ->
  ends (o_width o) (fun N => vexec N o (fun_cx fm (dep_of (f_body fd))) (f_body fd) st).
Proof.
  intros HP IH HCL HC HG HFA (l0 & W0 & F0) LV st LN. unfold chk_fun in HC. apply andb_prop in HC as [HC HC3]. apply andb_prop in HC as [HC1 HC2].
  set (dv := dep_of (f_body fd)) in *. set (du := udep_of (f_body fd)) in *.
  set (D := {| sc_v := seq 0 (f_nv fd); sc_u := seq 0 (f_nu fd) |}) in *.
  destruct (chk dv du None 0 no_frozen D (f_body fd)) as [D'|] eqn:EC; [|discriminate].
  unfold guarded_fun in HG.
  apply (IH dv du None 0 no_frozen D D' (fun_cx fm dv) (f_body fd) st fa (negb (mret false (f_body fd))) true true None HCL EC); auto.
  - repeat split; auto.
  - exact I.
  - exact I.
  - split; intros x Hx; cbn in Hx; [eapply forallb_seq_eq in HC1|eapply forallb_seq_eq in HC2]; eauto.
  - intros l Hl Hf. repeat split; auto.
  - split; [auto|]. split; [auto|]. split; [intros _; split; [discriminate|reflexivity]|]. split; [discriminate|].
    split; [discriminate|]. exists l0. auto.
  - intros E. apply negb_true_iff in E. exact E.
  - intros _. exists l0. auto.
  - intros l W Fm _. destruct (LN l W Fm) as (s0 & A1 & A2 & A3 & X). exists s0. split; auto.
    split; auto.
Qed.

Lemma Rexec_S o n : prog_ok (o_funs o) = true ->
  Rexec o n -> Rtop o n -> Rbody o n -> Rexec o (S n).
Proof.
  intros HP IHe IHt IHb dv du K d F D D' c s st fa nr ne jb jd HCL HC HX HK HKS HO HI HG HF HM HN LV LN.
  destruct (some_dec (o_width o) c st) as [SM|OFF].
  2:{ assert (ne = false). { destruct ne; auto. destruct (HN eq_refl) as (l & W & Fm & M). rewrite OFF in M; auto; discriminate. }
      subst ne. destruct (run_off o dv du F K d c s st D D' fa nr jb jd (width_pos _ _ _ _ _ _ _ _ HF) HC HX HK HI HG HF OFF)
        as (N & out & st' & E & T). exists N, out, st'. split; auto. rewrite T; auto. }
  pose proof HX as (HXd & HXv & HXK).
  assert (D01 : (0 <? S d) = true) by reflexivity.
  destruct s as [|a b|x e|u e|x e|u e|k e|coh t a b|coh body t|coh i t step body|t ss| | |e|x f us vs].
  - exists 1, VNorm, st. auto.
  - (* sequence *)
    cbn [chk] in HC. destruct (chk dv du K d F D a) as [D1|] eqn:CA; [|discriminate].
    cbn [guarded] in HG. apply andb_prop in HG as [G1 G2].
    assert (M1 : nr = true -> mret (0 <? d) a = false).
    { intros E. specialize (HM E). cbn [mret] in HM. apply orb_false_elim in HM. tauto. }
    assert (M2 : nr = true -> mret (0 <? d) b = false).
    { intros E. specialize (HM E). cbn [mret] in HM. apply orb_false_elim in HM. tauto. }
    destruct (IHe dv du K d F D D1 c a st fa nr ne jb jd HCL CA HX HK HKS HO HI G1 HF M1 HN LV) as (N1 & out1 & st1 & E1 & L1).
    { intros l W Fm M. destruct (LN l W Fm M) as (s0 & A & X). exists s0. split; auto. intros Y. apply X. cbn [lexec]. rewrite Y. auto. }
    destruct (match out1 with VNorm => true | _ => false end) eqn:ON.
    2:{ exists (S N1), out1, st1. split; auto. cbn [vexec]. rewrite E1. destruct out1; auto; discriminate. }
    assert (out1 = VNorm) by (destruct out1; auto; discriminate). subst out1. clear ON.
    pose proof (proj1 (simulation o HP N1) dv du K d F D D1 c a st VNorm st1 E1 CA HX HK HKS HO HI) as P.
    assert (HI1 : inv (o_width o) K d c st1) by (apply P; auto).
    assert (HKS1 : kscope K D1).
    { destruct K as [k|]; auto. destruct HKS. split; eapply scope_le_trans; eauto; eapply chk_le; eauto. }
    assert (HF1 : flg (o_width o) fa nr jb jd K c st1).
    { eapply flg_exec; eauto. eapply jd_le; eauto. }
    destruct (IHe dv du K d F D1 D' c b st1 fa nr (after ne jb jd d a) jb jd HCL HC HX HK HKS1 (chk_ok _ _ _ _ _ _ _ _ CA HO) HI1 G2 HF1 M2)
      as (N2 & out2 & st2 & E2 & L2); auto.
    { intros E. eapply after_ok; eauto. }
    { refine (lanes_next o N1 dv du K d F D D1 c a st st1 _ _ E1 P LN _).
      intros l s0 s1 Q E Y. apply Q. cbn [lexec]. destruct (lexec n (o_funs o) l a s0) as [r|] eqn:EN; auto.
      rewrite (lexec_det _ _ _ _ _ _ _ _ EN E). auto. }
    exists (S (N1 + N2)), out2, st2. split; auto. cbn [vexec]. rewrite (vexec_mono N1 (N1 + N2) _ _ _ _ _ (Nat.le_add_r _ _) E1).
    eapply vexec_mono; [|exact E2]. lia.
  - eexists 1, VNorm, _. split; [reflexivity|exact LV].
  - eexists 1, VNorm, _. split; [reflexivity|exact LV].
  - eexists 1, VNorm, _. split; [reflexivity|]. rewrite (proj2 (proj2 (proj2 (proj2 (store_same _ _ _ _))))). exact LV.
  - eexists 1, VNorm, _. split; [reflexivity|exact LV].
  - (* effect *)
    eexists 1, VNorm, _. split; [reflexivity|]. cbn [set_tr v_tr]. apply live_app; auto.
    destruct SM as (l & W & Fm & M). exists l. split; auto. unfold full, mand. rewrite M, Fm. discriminate.
  - (* if *)
    destruct t as [e|e].
    + cbn [chk test_ok] in HC. destruct (uexpr_ok D e) eqn:EV; [|discriminate].
      destruct (chk dv du K d F D a) as [Da|] eqn:CA; [|discriminate].
      destruct (chk dv du K d F D b) as [Db|] eqn:CB; [|discriminate]. injection HC as <-.
      cbn [guarded] in HG. apply andb_prop in HG as [G1 G2].
      pose proof (ctxrel_push_if dv K d c true HX) as HX1. cbn [plus] in HX1.
      assert (HF1 : flg (o_width o) fa nr jb jd K (push_if true c) st) by exact HF.
      assert (X : ends (o_width o) (fun N => vexec N o (push_if true c) (if is_true (ueval (v_U st) e) then a else b) st)).
      { assert (LL : lanes (o_width o) D (push_if true c) st
                  (fun l s0 => lexec n (o_funs o) l (if is_true (ueval (v_U st) e) then a else b) s0 <> None)).
        { intros l W Fm M. destruct (LN l W Fm M) as (s0 & A & X). exists s0. split; auto. cbn [lexec ltest] in X.
          rewrite <- (ueval_agree l D st s0 e A EV) in X. auto. }
        destruct (is_true (ueval (v_U st) e)).
        - eapply (IHe dv du K d F D Da (push_if true c) a st fa nr ne jb jd); eauto.
          intros E. specialize (HM E). cbn [mret] in HM. apply orb_false_elim in HM. tauto.
        - eapply (IHe dv du K d F D Db (push_if true c) b st fa nr ne jb jd); eauto.
          intros E. specialize (HM E). cbn [mret] in HM. apply orb_false_elim in HM. tauto. }
      eapply ends_mono; [|exact X]. intros N r E. exists (S N). cbn [vexec]. exact E.
    + cbn [chk test_ok] in HC. destruct (vexpr_ok D e) eqn:EV; [|discriminate].
      destruct (chk dv du K (S d) F D a) as [Da|] eqn:CA; [|discriminate].
      destruct (chk dv du K (S d) F D b) as [Db|] eqn:CB; [|discriminate]. clear HC.
      cbn [guarded] in HG. cbv zeta in HG. apply andb_prop in HG as [G1 G2].
      set (t := fun l : lane => is_true (xeval st l e)).
      assert (LN' : lanes (o_width o) D c st (fun l s0 => lexec n (o_funs o) l (if t l then a else b) s0 <> None)).
      { intros l W Fm M. destruct (LN l W Fm M) as (s0 & A & X). exists s0. split; auto. cbn [lexec ltest] in X.
        rewrite <- (xeval_agree l D st s0 e A EV) in X. auto. }
      assert (FIN : forall saved ma mb ra rb,
         (ra = true -> forall l, l < o_width o -> c_fm c l = true -> ma l = v_mask st l && t l) ->
         (ra = false -> forall l, l < o_width o -> c_fm c l = true -> v_mask st l && t l = false) ->
         (rb = true -> forall l, l < o_width o -> c_fm c l = true -> mb l = v_mask st l && negb (t l)) ->
         (rb = false -> forall l, l < o_width o -> c_fm c l = true -> v_mask st l && negb (t l) = false) ->
         (ra = true -> coh || negb (safe a && safe b) = true -> exists l, l < o_width o /\ c_fm c l = true /\ v_mask st l && t l = true) ->
         (rb = true -> coh || negb (safe a && safe b) = true -> exists l, l < o_width o /\ c_fm c l = true /\ v_mask st l && negb (t l) = true) ->
         ends (o_width o) (fun N => vif N o c saved ma mb ra rb a b st)).
      { intros saved ma mb ra rb H1 H2 H3 H4 H5 H6.
        eapply (Rvif o n dv du K d F D Da Db c saved ma mb ra rb a b t st fa nr _ jb jd); eauto;
        intros E; specialize (HM E); cbn [mret] in HM; apply orb_false_elim in HM; tauto. }
      assert (MIX : ends (o_width o) (fun N => vif_mixed N o c (v_mask st) t a b st)).
      { eapply ends_mono; [|apply (FIN (v_mask st) (mand (v_mask st) t) (mand (v_mask st) (mnot t))
            (m_any (o_width o) (mand (mand (v_mask st) t) (c_fm c))) (m_any (o_width o) (mand (mand (v_mask st) (mnot t)) (c_fm c))))].
        - intros N r E. exists (S N). exact E.
        - auto.
        - intros E l Hl Hf. rewrite m_any_false in E. specialize (E l Hl). unfold mand in E. rewrite Hf, andb_true_r in E. auto.
        - auto.
        - intros E l Hl Hf. rewrite m_any_false in E. specialize (E l Hl). unfold mand, mnot in E. rewrite Hf, andb_true_r in E. auto.
        - intros E _. apply m_any_true in E as (l & W & X). unfold mand in X. apply andb_prop in X as [X Y]. eauto.
        - intros E _. apply m_any_true in E as (l & W & X). unfold mand, mnot in X. apply andb_prop in X as [X Y]. eauto. }
      assert (GO : forall g, ends (o_width o) g -> (forall N, vexec (S N) o c (SIf coh (TV e) a b) st = g N) ->
                  ends (o_width o) (fun N => vexec N o c (SIf coh (TV e) a b) st)).
      { intros g X Y. eapply ends_mono; [|exact X]. intros N r E. exists (S N). rewrite Y. auto. }
      destruct coh.
      * destruct (m_all (o_width o) (full c st)) eqn:EA.
        2:{ eapply GO; [exact MIX|]. intros N. cbn [vexec]. cbv zeta. rewrite EA. reflexivity. }
        assert (ON : forall l, l < o_width o -> v_mask st l = true /\ c_fm c l = true).
        { rewrite m_all_true in EA. intros l Hl. specialize (EA l Hl). unfold full, mand in EA. apply andb_prop in EA. tauto. }
        destruct SM as (l0 & W0 & F0 & M0).
        destruct (m_all (o_width o) t) eqn:ET; [|destruct (m_any (o_width o) t) eqn:EN].
        -- eapply GO; [|intros N; cbn [vexec]; cbv zeta; fold t; rewrite EA, ET; reflexivity].
           rewrite m_all_true in ET. apply FIN; try discriminate.
           ++ intros _ l Hl _. destruct (ON l Hl) as [-> _]. rewrite ET; auto.
           ++ intros _ l Hl _. rewrite ET by auto. apply andb_false_r.
           ++ intros _ _. exists l0. rewrite M0, ET; auto.
        -- eapply GO; [|intros N; cbn [vexec]; cbv zeta; fold t; rewrite EA, ET, EN; reflexivity].
           apply FIN; try discriminate.
           ++ intros _ l Hl _. destruct (ON l Hl) as [-> _]. auto.
           ++ intros _ l Hl _. destruct (ON l Hl) as [-> _]. auto.
           ++ intros _ _. apply m_any_true in EN as (l & W & X). exists l. destruct (ON l W) as [-> ->]. auto.
           ++ intros _ _. apply m_all_false in ET as (l & W & X). exists l. destruct (ON l W) as [-> ->]. rewrite X. auto.
        -- eapply GO; [|intros N; cbn [vexec]; cbv zeta; fold t; rewrite EA, ET, EN; reflexivity].
           rewrite m_any_false in EN. apply FIN; try discriminate.
           ++ intros _ l Hl _. rewrite EN by auto. apply andb_false_r.
           ++ intros _ l Hl _. destruct (ON l Hl) as [-> _]. rewrite EN; auto.
           ++ intros _ _. exists l0. rewrite M0, EN; auto.
      * destruct (predicated o a b) eqn:EP.
        2:{ eapply GO; [exact MIX|]. intros N. cbn [vexec]. cbv zeta. rewrite EP. reflexivity. }
        eapply GO; [|intros N; cbn [vexec]; cbv zeta; fold t; rewrite EP; reflexivity].
        assert (SAFE : safe a && safe b = true) by (unfold predicated in EP; apply andb_prop in EP; tauto).
        apply FIN; try discriminate; auto; intros _ Y; rewrite SAFE in Y; discriminate.
  - (* do *)
    cbn [chk] in HC. set (u := uniform_cf t body) in *. set (d' := if u then d else S d) in *.
    set (k := {| k_loop := true; k_uni := u; k_dl := d'; k_hasc := negb u && has_continue body;
                 k_sc := false; k_db := D; k_dc := D |}) in *.
    destruct (test_ok D t) eqn:ET; [|discriminate].
    destruct (chk dv du (Some k) d' F D body) as [Dx|] eqn:CB; [|discriminate]. injection HC as <-.
    assert (Hd' : d' = 0 -> d = 0) by (unfold d'; destruct u; lia).
    assert (HLE : d <= d') by (unfold d'; destruct u; lia).
    assert (HPR : u = false -> scope_pres dv du d' F D).
    { intros E. unfold d'. rewrite E. apply scope_ok_pres; auto. }
    assert (HL : loop_ok o dv du d' F F k D (push_loop u c) u t SSkip body).
    { split; [auto|]. split; [auto|]. split; [auto|]. split; [auto|].
      split. { change d' with (k_dl k). change u with (k_uni k). eapply ctxrel_push_loop; eauto.
               cbn. unfold d'. destruct u; auto. }
      split. { split; [apply le_n|]. cbn. split; [intros E; auto|].
               split; [intros ->; auto|]. split; [discriminate|]. unfold d'. intros ->. lia. }
      split; [apply frozen_le_refl|]. split; [apply scope_le_refl|].
      split; [eapply scope_ok_mono; eauto|]. split; [exact HPR|].
      split; [apply uniform_cf_TU|]. split; [auto|]. split; [exists Dx; exact CB|exists D; reflexivity]. }
    destruct (IHb dv du d' F F k D (push_loop u c) u coh t SSkip body (set_bc all_off all_off st) fa nr ne HCL HL
               (inv_loop_start _ _ _ _ _ _ _ HI eq_refl Hd')) as (N & out & st' & E & L'); auto.
    + intros E. unfold u, uniform_cf in E. destruct t; [|discriminate]. apply negb_true_iff; auto.
    + cbn [guarded] in HG. fold u in HG. unfold lguard, d'. destruct u.
      * apply andb_prop in HG as [HG G2]. apply andb_prop in HG as [_ G1]. cbn [esc orb guarded]. rewrite G1, G2. auto.
      * cbn [guarded andb]. exact HG.
    + eapply flg_none; [exact HF|reflexivity|reflexivity|apply jok_loop].
    + intros E. specialize (HM E). cbn [mret] in HM. fold u in HM. unfold d'. destruct u; cbn [negb] in HM; rewrite ?orb_false_r, ?orb_true_r in HM; auto.
    + exists (S N). cbn [vexec]. cbv zeta. fold u. rewrite E. destruct out; do 2 eexists; (split; [reflexivity|]); auto.
      unfold end_loop. destruct u; auto. 
  - (* for *)
    cbn [chk] in HC. set (u := uniform_cf t body) in *. set (d' := if u then d else S d) in *.
    destruct (chk dv du None d' F D i) as [D1|] eqn:CI; [|discriminate].
    set (cc := negb u && has_continue body) in *.
    set (k := {| k_loop := true; k_uni := u; k_dl := d'; k_hasc := cc; k_sc := false; k_db := D; k_dc := D1 |}) in *.
    set (F' := if cc then add_frozen (at_depth dv du d' D1) F else F) in *.
    destruct (test_ok D1 t) eqn:ET; [|discriminate].
    destruct (chk dv du (Some k) d' F' D1 body) as [Dx|] eqn:CB; [|discriminate].
    destruct (chk dv du None d' F D1 step) as [Dy|] eqn:CS; [|discriminate]. injection HC as <-.
    assert (Hd' : d' = 0 -> d = 0) by (unfold d'; destruct u; lia).
    assert (HLE : d <= d') by (unfold d'; destruct u; lia).
    assert (HO' : scope_ok dv du d' D) by (eapply scope_ok_mono; eauto).
    assert (HO1 : scope_ok dv du d' D1) by (eapply chk_ok; eauto).
    assert (HFF : frozen_le F F').
    { unfold F'. destruct cc; [apply frozen_le_add|apply frozen_le_refl]. }
    assert (HPR : u = false -> scope_pres dv du d' F D).
    { intros E. unfold d'. rewrite E. apply scope_ok_pres; auto. }
    assert (HX1 : ctxrel dv (Some k) d' (push_loop u c)).
    { change d' with (k_dl k). change u with (k_uni k). eapply ctxrel_push_loop; eauto.
      cbn. unfold d'. destruct u; auto. }
    assert (HL : loop_ok o dv du d' F F' k D1 (push_loop u c) u t step body).
    { split; [auto|]. split; [auto|]. split; [auto|]. split; [auto|].
      split; [exact HX1|].
      split. { split; [apply le_n|]. cbn. split.
               { intros E. split; [eapply scope_pres_mono; [apply le_n|exact HFF|auto]|].
                 intros EC. unfold F'. rewrite EC. apply at_depth_pres; auto. }
               split; [unfold cc; intros ->; auto|]. split; [discriminate|]. unfold d'. intros ->. lia. }
      split; [auto|]. split; [eapply chk_le; eauto|].
      split; [auto|]. split; [exact HPR|].
      split; [apply uniform_cf_TU|]. split; [auto|]. split; eauto. }
    set (st0 := set_bc all_off all_off st).
    assert (HI0 : inv (o_width o) None d' (push_loop u c) st0) by (eapply inv_loop_start; eauto).
    assert (HF0 : flg (o_width o) fa nr true None None (push_loop u c) st0).
    { eapply flg_none; [exact HF|reflexivity|reflexivity|apply jok_loop]. }
    assert (MM : nr = true -> mret (0 <? d') i = false /\ mret (0 <? d') step = false /\ mret (0 <? d') body = false).
    { intros E. specialize (HM E). cbn [mret] in HM. cbv zeta in HM. fold u in HM. apply orb_false_elim in HM as [HM M3].
      apply orb_false_elim in HM as [M1 M2]. unfold d'. destruct u; cbn [negb] in *; rewrite ?orb_false_r, ?orb_true_r in *; auto. }
    assert (GG : exists ne', guarded fa nr ne' true None d' i = true /\ (ne' = true -> ne = true \/ u = true) /\
               (u = true -> d' =? 0 = false -> esc true i = false)).
    { cbn [guarded] in HG. fold u in HG. unfold d'. destruct u.
      - apply andb_prop in HG as [HG _]. apply andb_prop in HG as [HG _]. apply andb_prop in HG as [HG G1].
        apply andb_prop in HG as [_ HG]. exists true. split; auto. split; auto. intros _ E. rewrite E in HG. cbn [orb] in HG.
        apply negb_true_iff in HG. apply orb_false_elim in HG as [HG _]. apply orb_false_elim in HG. tauto.
      - apply andb_prop in HG as [HG _]. apply andb_prop in HG as [HG _]. exists ne. split; auto. split; auto. discriminate. }
    destruct GG as (ne' & GI & _ & ESCi).
    destruct (IHe dv du None d' F D D1 (push_loop u c) i st0 fa nr ne' true None HCL CI (ctxrel_none _ _ _ _ HX1) I I HO' HI0 GI HF0)
      as (N1 & out1 & st1 & E1 & L1); auto.
    { intros E. apply (MM E). }
    { intros l W Fm M. destruct (LN l W Fm M) as (s0 & A & X). exists s0. split; auto. intros Y. apply X. cbn [lexec]. rewrite Y. auto. }
    destruct (match out1 with VNorm => true | _ => false end) eqn:ON.
    2:{ exists (S N1), out1, st1. split; auto. cbn [vexec]. cbv zeta. fold u. fold st0. rewrite E1. destruct out1; auto; discriminate. }
    assert (out1 = VNorm) by (destruct out1; auto; discriminate). subst out1. clear ON.
    pose proof (proj1 (simulation o HP N1) dv du None d' F D D1 (push_loop u c) i st0 VNorm st1 E1 CI (ctxrel_none _ _ _ _ HX1) I I HO' HI0) as P.
    assert (HI1 : inv (o_width o) None d' (push_loop u c) st1) by (apply P; auto).
    assert (HF1 : flg (o_width o) fa nr true None None (push_loop u c) st1).
    { eapply flg_exec0; [exact E1| |intros E; apply (MM E)|exact HF0]. apply HX1. }
    destruct (IHt dv du d' F F' k D1 (push_loop u c) u coh t step body st1 fa nr true HCL HL HI1) as (N2 & out2 & st2 & E2 & L2); auto.
    { intros E. unfold u, uniform_cf in E. destruct t; [|discriminate]. apply negb_true_iff; auto. }
    { cbn [guarded] in HG. fold u in HG. unfold lguard, d'. destruct u.
      - apply andb_prop in HG as [HG G3]. apply andb_prop in HG as [HG G2]. apply andb_prop in HG as [HG G1].
        apply andb_prop in HG as [_ HG]. rewrite G2, G3, !andb_true_r. apply orb_prop in HG as [->|HG]; auto.
        apply negb_true_iff in HG. apply orb_false_elim in HG as [HG X2]. apply orb_false_elim in HG as [_ X1].
        rewrite X1, X2. apply orb_true_r.
      - apply andb_prop in HG as [HG G3]. apply andb_prop in HG as [HG G2]. rewrite G2, andb_true_r. exact G3. }
    { intros E. apply (MM E). }
    { intros E. apply (MM E). }
    { intros EU. destruct (d' =? 0) eqn:ED.
      - apply Nat.eqb_eq in ED. eapply inv_some; eauto.
      - specialize (ESCi EU eq_refl). destruct SM as (l & W & Fm & M). exists l. split; auto. split; auto.
        destruct (proj1 (esc_same l N1) o (push_loop u c) i st0 VNorm st1 true KN E1 W Fm ESCi) as [(X & _) _].
        + apply HF0.
        + apply (proj1 (chk_wfs dv du) i None d' F D D1 CI).
        + discriminate.
        + eapply inv_bok; eauto.
        + rewrite <- X in M || (rewrite X); auto. }
    { refine (lanes_next o N1 dv du None d' F D D1 (push_loop u c) i st0 st1 _ _ E1 P LN _).
      intros l s0 s1 Q E Y. apply Q. cbn [lexec]. destruct (lexec n (o_funs o) l i s0) as [r|] eqn:EN; auto.
      rewrite (lexec_det _ _ _ _ _ _ _ _ EN E). auto. }
    exists (S (N1 + N2)). cbn [vexec]. cbv zeta. fold u. fold st0.
    rewrite (vexec_mono N1 (N1 + N2) _ _ _ _ _ (Nat.le_add_r _ _) E1).
    rewrite (vtop_mono N2 (N1 + N2) _ _ _ _ _ _ _ _ _ (Nat.le_add_l _ _) E2).
    destruct out2; do 2 eexists; (split; [reflexivity|]); auto.
    unfold end_loop. destruct u; auto.
  - (* switch *)
    rewrite chk_switch in HC. cbv zeta in HC.
    set (u := uniform_cf_switch t ss) in *. set (d' := if u then d else S d) in *.
    set (k := {| k_loop := false; k_uni := u; k_dl := d'; k_hasc := false;
                 k_sc := match t with TU _ => true | TV _ => false end; k_db := D; k_dc := D |}) in *.
    destruct (test_ok D t && nodupZ (case_values ss) && (defaults ss <=? 1) && chk_secs dv du (Some k) d' F D ss) eqn:EC; [|discriminate].
    injection HC as <-. apply andb_prop in EC as [EC CS]. apply andb_prop in EC as [EC CD]. apply andb_prop in EC as [ET CN].
    apply Nat.leb_le in CD.
    assert (Hd' : d' = 0 -> d = 0) by (unfold d'; destruct u; lia).
    assert (HLE : d <= d') by (unfold d'; destruct u; lia).
    assert (HO' : scope_ok dv du d' D) by (eapply scope_ok_mono; eauto).
    assert (HPR : u = false -> scope_pres dv du d' F D).
    { intros E. unfold d'. rewrite E. apply scope_ok_pres; auto. }
    assert (HK' : kcond dv du d' F (Some k)).
    { split; [apply le_n|]. cbn. split; [intros E; split; auto|]. split; [auto|]. split; [auto|].
      unfold d'. intros ->. lia. }
    assert (HKS' : kscope (Some k) D) by (split; apply scope_le_refl).
    destruct t as [e|e].
    + set (c1 := push_switch u true (full c st) c). set (st0 := set_bc all_off all_off st).
      assert (HX1 : ctxrel dv (Some k) d' c1).
      { change d' with (k_dl k). unfold c1. change u with (k_uni k).
        apply (ctxrel_push_switch dv K d c k (full c st)); try reflexivity; [exact HX|]. change ((if u then d else S d) = (if u then 0 else 1) + d). case u; reflexivity. }
      set (tg := scalar_target (ueval (v_U st) e) ss).
      pose proof (scalar_target_suffix (ueval (v_U st) e) ss) as SFX. fold tg in SFX.
      assert (CS' : chk_secs dv du (Some k) d' F D tg = true).
      { eapply suffix_chk; eauto. }
      assert (HIS : inv (o_width o) (Some k) d' c1 st0).
      { apply (inv_switch_start _ _ _ _ _ (push_switch u true (full c st) c) k _ HI eq_refl eq_refl Hd'). }
      assert (GS : exists jd' ne', guarded_secs fa nr ne' true jd' d' tg = true /\ (ne' = true -> ne = true) /\
                 flg (o_width o) fa nr true jd' (Some k) c1 st0).
      { change ((if uniform_cf_switch (TU e) ss then guarded_secs fa nr ne true None d ss
                 else guarded_secs fa nr ne true (jdof (nr && ne) (S d)) (S d) ss) = true) in HG.
        fold u in HG. unfold d'. destruct u eqn:EU.
        - destruct (suffix_guarded2 _ _ _ _ _ _ _ SFX _ HG) as (ne' & X & Y). exists None, ne'. split; auto. split; auto.
          eapply flg_none; [exact HF|reflexivity|reflexivity|apply jok_switch].
        - destruct (suffix_guarded2 _ _ _ _ _ _ _ SFX _ HG) as (ne' & X & Y). exists (jdof (nr && ne) (S d)), ne'. split; auto. split; auto.
          destruct HF as (Q1 & Q2 & Q3 & _ & Q5).
          split; [auto|]. split; [auto|]. split; [apply jok_switch|]. split; [|exact Q5].
          intros dl E. destruct (nr && ne) eqn:EN; [|discriminate]. injection E as <-. apply andb_prop in EN as [-> _].
          split; auto. split; [lia|]. exists k. split; auto. split; [reflexivity|]. split; [reflexivity|]. split; [reflexivity|].
          split. { intros l W. cbn. unfold full, mand. intros Z. apply andb_prop in Z. tauto. }
          split.
          + intros l W Fm. split; [apply Q2; auto|]. cbn. intros [Z|[Z|Z]]; try discriminate. unfold full, mand. rewrite Z.
            cbn in Fm. rewrite Fm. auto.
          + destruct SM as (l & W & Fm & M). exists l. split; auto. split; auto.
            split; [cbn; unfold full, mand; rewrite M, Fm; auto|]. split; [apply Q2; auto|]. split; reflexivity. }
      destruct GS as (jd' & ne' & GS & NE & HFS).
      destruct (Rrun o n HP IHe tg dv du k d' F D c1 st0 fa nr ne' true jd' HCL CS' HX1 HK' HKS' HO' HIS GS HFS) as (N & out & st' & E & L'); auto.
      * intros E. specialize (HM E). change (mret_secs ((0 <? d) || negb u) ss = false) in HM.
        eapply suffix_mret; [exact SFX|]. unfold d'. destruct u; cbn [negb] in HM; rewrite ?orb_false_r, ?orb_true_r in HM; auto.
      * intros l W Fm M. destruct (LN l W Fm M) as (s0 & A & X). exists s0. split; auto. intros Y. apply X. cbn [lexec switch_operand].
        rewrite <- (ueval_agree l D st s0 e A ET), c_switch_eq. fold tg. rewrite Y. auto.
      * exists (S N). cbn [vexec]. cbv zeta. change (uniform_cf_switch (TU e) ss) with u. fold c1 tg st0. rewrite E.
        destruct out; do 2 eexists; (split; [reflexivity|]); auto; unfold end_loop; destruct u; auto.
    + assert (EU : u = false) by reflexivity.
      set (c1 := push_switch u false (full c st) c). set (st0 := set_mask all_off (set_bc all_off all_off st)).
      assert (HX1 : ctxrel dv (Some k) d' c1).
      { change d' with (k_dl k). unfold c1. change u with (k_uni k).
        apply (ctxrel_push_switch dv K d c k (full c st)); auto. }
      assert (D0' : 0 < d') by (unfold d'; rewrite EU; lia).
      set (v := fun l : lane => xeval st l e).
      destruct (Rsecs o n HP IHe ss dv du k d' F D c1 (v_mask st) v (case_values ss) st0 fa nr) as (N & out & st' & E & L'); auto.
      * apply uniq_ok; auto.
      * intros l Hl Hf. split; [split; [discriminate|]|split; [lia|]].
        -- cbn. auto.
        -- split; [discriminate|]. cbn [k k_sc k_loop]. discriminate.
      * intros l Hl Hf Hw. unfold waiting in Hw. apply andb_prop in Hw as [Hw _]. cbn in Hf |- *.
        destruct (HI l Hl Hf) as ((B1 & _) & _). unfold full, mand. rewrite Hw, Hf. destruct (B1 Hw) as (_ & _ & ->). auto.
      * eapply flg_none; [exact HF|reflexivity|reflexivity|apply jok_false].
      * intros E. specialize (HM E). change (mret_secs ((0 <? d) || negb u) ss = false) in HM. rewrite EU in HM. cbn [negb] in HM.
        rewrite orb_true_r in HM. exact HM.
      * intros l W Fm M. discriminate.
      * intros l W Fm Hw. unfold waiting in Hw. apply andb_prop in Hw as [Hw _].
        destruct (LN l W Fm Hw) as (s0 & A & X). exists s0. split; [exact A|]. intros Y. apply X. cbn [lexec switch_operand].
        rewrite <- (xeval_agree l D st s0 e A ET), c_switch_eq, scalar_target_eq. fold (v l). rewrite Y. auto.
      * exists (S N). cbn [vexec]. cbv zeta. change (uniform_cf_switch (TV e) ss) with u. fold c1 st0 v. rewrite E.
        destruct out; do 2 eexists; (split; [reflexivity|]); auto; unfold end_loop; destruct u; auto.
  - (* break *)
    assert (BT : c_bt c = true).
    { destruct K as [k|]; [|discriminate HC]. apply HXK. }
    exists 1. cbn [vexec]. unfold do_break. rewrite BT. cbn [negb].
    repeat match goal with |- context [if ?x then _ else _] => destruct x end; do 2 eexists; (split; [reflexivity|auto]).
  - (* continue *)
    assert (CT : c_ct c = true).
    { pose proof (proj1 (chk_wfs dv du) _ _ _ _ _ _ HC) as X. cbn [wfs] in X. destruct K as [k|]; [|discriminate X].
      destruct HXK as (_ & _ & -> & _). cbn [kof] in X. destruct (k_loop k); auto; discriminate. }
    exists 1. cbn [vexec]. unfold do_continue. rewrite CT. cbn [negb].
    repeat match goal with |- context [if ?x then _ else _] => destruct x end; do 2 eexists; (split; [reflexivity|auto]).
  - (* return *)
    exists 1. cbn [vexec]. unfold do_return. cbv zeta.
    repeat match goal with |- context [if ?x then _ else _] => destruct x end; do 2 eexists; (split; [reflexivity|auto]).
  - (* call *)
    cbn [chk] in HC.
    destruct (forallb (uexpr_ok D) us && forallb (vexpr_ok D) vs && assign_ok dv d F D x) eqn:EC; [|discriminate].
    apply andb_prop in EC as [EC EA]. apply andb_prop in EC as [EU EV]. clear HC. rewrite forallb_forall in EU, EV.
    pose proof SM as (l0 & W0 & F0 & M0). destruct (LN l0 W0 F0 M0) as (s0 & A0 & X0). cbn [lexec] in X0.
    destruct (nth_error (o_funs o) f) as [fd|] eqn:EF; [|congruence].
    pose proof (prog_ok_nth _ _ _ HP EF) as CF. cbn [guarded] in HG. apply andb_prop in HG as [_ GF]. pose proof (HCL _ _ GF EF) as GF'.
    assert (EQ : forall l, l < o_width o -> entry_mask o (f_body fd) (full c st) l = v_mask st l && c_fm c l).
    { intros l Hl. rewrite entry_mask_eq; auto. }
    destruct (Rfun o n fd (entry_mask o (f_body fd) (full c st)) (bind 0 (map (ueval (v_U st)) us) (fun _ => 0%Z))
               (bind 0 (map (fun e l => xeval st l e) vs) (fun _ _ => 0%Z)) (v_G st) (v_tr st) {| g_on := false; g_ok := g_ok fa |} HP IHe HCL CF GF')
      as (N & out & st' & E & L'); auto.
    + discriminate.
    + exists l0. split; auto. rewrite EQ, M0, F0; auto.
    + intros l W Fm. rewrite EQ in Fm by auto. apply andb_prop in Fm as [M Fm].
      destruct (LN l W Fm M) as (s1 & A & X). pose proof A as ((A1 & A2 & A3) & A4 & A5).
      eexists {| l_V := bind 0 (map (leval l s1) vs) (fun _ => 0%Z); l_U := bind 0 (map (ueval (l_U s1)) us) (fun _ => 0%Z);
                 l_G := l_G s1; l_rv := 0; l_tr := l_tr s1 |}.
      split; [repeat split; auto|]. split; [|split].
      * intros y. cbn. apply bind_map; auto. intros e He. eapply xeval_agree; eauto.
      * intros y. cbn. apply bind_map_u. intros e He. eapply ueval_agree; eauto.
      * intros Y. apply X. cbn [lexec]. rewrite EF, Y. auto.
    + destruct (post_fun o N fd _ _ out st' (proj1 (simulation o HP N)) CF E) as (O & _).
      { intros l. repeat split. }
      exists (S N). cbn [vexec]. rewrite EF.
      change (vexec N o (fun_cx (entry_mask o (f_body fd) (full c st)) (dep_of (f_body fd))) (f_body fd)
         (fun_state (bind 0 (map (ueval (v_U st)) us) (fun _ => 0%Z)) (bind 0 (map (fun e l => xeval st l e) vs) (fun _ _ => 0%Z)) st) = Some (out, st')) in E.
      rewrite E. destruct O as [->| ->]; do 2 eexists; (split; [reflexivity|]);
        rewrite (proj2 (proj2 (proj2 (proj2 (store_same _ _ _ _))))); exact L'.
Qed.

Theorem liveness o : prog_ok (o_funs o) = true -> forall n, Rexec o n /\ Rtop o n /\ Rbody o n.
Proof.
  intros HP. assert (R0 : Rexec o 0 /\ Rtop o 0 /\ Rbody o 0).
  { split; [|split].
    - intros dv du K d F D D' c s st fa nr ne jb jd HCL HC HX HK HKS HO HI G HF HM HN LV LN.
      destruct (some_dec (o_width o) c st) as [(l & W & Fm & M)|OFF].
      + destruct (LN l W Fm M) as (s0 & _ & X). exfalso. apply X. reflexivity.
      + assert (ne = false). { destruct ne; auto. destruct (HN eq_refl) as (l & W & Fm & M). rewrite OFF in M; auto; discriminate. }
        subst ne. destruct (run_off o dv du F K d c s st D D' fa nr jb jd (width_pos _ _ _ _ _ _ _ _ HF) HC HX HK HI G HF OFF)
          as (N & out & st' & E & T). exists N, out, st'. split; auto. rewrite T; auto.
    - apply Rtop_of. discriminate.
    - apply Rbody_of; auto. discriminate. }
  induction n as [|n (IHe & IHt & IHb)]; auto. split; [|split].
  - apply Rexec_S; auto.
  - apply Rtop_of. intros m E. injection E as <-. auto.
  - apply Rbody_of; auto. intros m E. injection E as <-. auto.
Qed.
