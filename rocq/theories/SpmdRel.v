(** The simulation relation between the gang (SpmdModel) and its instances (SpmdSpec), and
    its structural lemmas. *)
From Coq Require Import ZArith List Bool Arith Lia.
From Verif Require Import Bits SpmdModel SpmdSpec.
Import ListNotations.

(** ** Fuel *)

Lemma lexec_step : forall n fs l,
  (forall s st r, lexec n fs l s st = Some r -> lexec (S n) fs l s st = Some r) /\
  (forall t a b st r, ltop n fs l t a b st = Some r -> ltop (S n) fs l t a b st = Some r) /\
  (forall t a b st r, lbody n fs l t a b st = Some r -> lbody (S n) fs l t a b st = Some r) /\
  (forall ss st r, lrun n fs l ss st = Some r -> lrun (S n) fs l ss st = Some r).
Proof.
  induction n as [|n IH]; intros fs l.
  - repeat split; intros; discriminate.
  - destruct (IH fs l) as (IHe & IHt & IHb & IHr). clear IH.
    repeat split.
    + intros s st r H.
      destruct s; cbn [lexec] in H; remember (S n) as m eqn:Em; cbn [lexec]; try exact H.
      * destruct (lexec n fs l s1 st) as [[[] st1]|] eqn:E; try discriminate;
          apply IHe in E; rewrite E; auto.
      * auto.
      * auto.
      * destruct (lexec n fs l s1 st) as [[[] st1]|] eqn:E; try discriminate;
          apply IHe in E; rewrite E; auto.
      * destruct (lrun n fs l (c_switch (switch_operand l st t) ss) st) as [[[] st1]|] eqn:E;
          try discriminate; apply IHr in E; rewrite E; auto.
      * destruct (nth_error fs f) as [fd|]; [|discriminate].
        match goal with |- context [lexec m fs l ?b ?x] =>
          destruct (lexec n fs l b x) as [[[] st1]|] eqn:E end;
          try discriminate; apply IHe in E; rewrite E; auto.
    + intros t a b st r H. cbn [ltop] in H; remember (S n) as m eqn:Em; cbn [ltop].
      destruct (ltest l st t); auto.
    + intros t a b st r H. cbn [lbody] in H; remember (S n) as m eqn:Em; cbn [lbody].
      destruct (lexec n fs l b st) as [[[] st1]|] eqn:E; try discriminate; apply IHe in E; rewrite E; auto.
      * destruct (lexec n fs l a st1) as [[[] st2]|] eqn:E2; try discriminate; apply IHe in E2; rewrite E2; auto.
      * destruct (lexec n fs l a st1) as [[[] st2]|] eqn:E2; try discriminate; apply IHe in E2; rewrite E2; auto.
    + intros ss st r H. cbn [lrun] in H; remember (S n) as m eqn:Em; cbn [lrun].
      destruct ss as [|lb body rest]; auto.
      destruct (lexec n fs l body st) as [[[] st1]|] eqn:E; try discriminate; apply IHe in E; rewrite E; auto.
Qed.

Lemma lexec_S n fs l s st r : lexec n fs l s st = Some r -> lexec (S n) fs l s st = Some r.
Proof. apply (lexec_step n fs l). Qed.
Lemma ltop_S n fs l t a b st r : ltop n fs l t a b st = Some r -> ltop (S n) fs l t a b st = Some r.
Proof. apply (lexec_step n fs l). Qed.
Lemma lbody_S n fs l t a b st r : lbody n fs l t a b st = Some r -> lbody (S n) fs l t a b st = Some r.
Proof. apply (lexec_step n fs l). Qed.
Lemma lrun_S n fs l ss st r : lrun n fs l ss st = Some r -> lrun (S n) fs l ss st = Some r.
Proof. apply (lexec_step n fs l). Qed.

Lemma lexec_mono n m fs l s st r : n <= m -> lexec n fs l s st = Some r -> lexec m fs l s st = Some r.
Proof. induction 1; intros; auto. apply lexec_S; auto. Qed.

(** ** Masks *)

Lemma m_any_true w m : m_any w m = true <-> exists l, l < w /\ m l = true.
Proof.
  unfold m_any. rewrite existsb_exists. split; intros [l [H1 H2]]; exists l.
  - apply in_seq in H1. split; [lia|auto].
  - split; [apply in_seq; lia|auto].
Qed.

Lemma m_any_false w m : m_any w m = false <-> forall l, l < w -> m l = false.
Proof.
  split.
  - intros H l Hl. destruct (m l) eqn:E; auto.
    assert (m_any w m = true) by (apply m_any_true; eauto). congruence.
  - intros H. destruct (m_any w m) eqn:E; auto. apply m_any_true in E as [l [H1 H2]].
    rewrite H in H2; auto.
Qed.

Lemma m_all_true w m : m_all w m = true <-> forall l, l < w -> m l = true.
Proof.
  unfold m_all. rewrite forallb_forall. split; intros H l Hl; apply H.
  - apply in_seq; lia.
  - apply in_seq in Hl; lia.
Qed.

Lemma m_equal_true w a b : m_equal w a b = true <-> forall l, l < w -> a l = b l.
Proof.
  unfold m_equal. rewrite forallb_forall. split; intros H l Hl.
  - apply eqb_prop, H, in_seq; lia.
  - apply in_seq in Hl. rewrite H by lia. apply eqb_reflx.
Qed.

(** ** Relations *)

Lemma mem_In x l : mem x l = true <-> In x l.
Proof.
  unfold mem. rewrite existsb_exists. split.
  - intros [y [H1 H2]]. apply Nat.eqb_eq in H2. subst; auto.
  - intros H. exists x. split; auto. apply Nat.eqb_refl.
Qed.

Definition pv (dv : nat -> nat) (d : nat) (F : frozen) (x : nat) : Prop := dv x < d \/ In x (fz_v F).
Definition pu (du : nat -> nat) (d : nat) (F : frozen) (u : nat) : Prop := du u < d \/ In u (fz_u F).

Definition gframe (l : lane) (st st' : vst) : Prop :=
  (forall g, v_G st' g l = v_G st g l) /\ lane_trace l (v_tr st') = lane_trace l (v_tr st).

(** What execution leaves alone in a lane that is off (the mask aside). *)
Definition frame0 dv (d : nat) (F : frozen) (l : lane) (st st' : vst) : Prop :=
  v_brk st' l = v_brk st l /\ v_cnt st' l = v_cnt st l /\ v_ret st' l = v_ret st l /\
  v_rv st' l = v_rv st l /\ gframe l st st' /\
  (forall x, pv dv d F x -> v_V st' x l = v_V st x l).

Definition frame dv d F l st st' : Prop := v_mask st' l = false /\ frame0 dv d F l st st'.

(** After a return instruction only memory and the return value matter. *)
Definition framex (out : vout) dv d F l st st' : Prop :=
  match out with
  | VRet => gframe l st st' /\ v_rv st' l = v_rv st l
  | _ => frame dv d F l st st'
  end.

Definition uframe du (d : nat) (F : frozen) (st st' : vst) : Prop :=
  forall u, pu du d F u -> v_U st' u = v_U st u.

Definition agreeG (l : lane) (st : vst) (s : lst) : Prop :=
  (forall g, v_G st g l = l_G s g) /\ lane_trace l (v_tr st) = l_tr s /\ v_rv st l = l_rv s.

Definition agree (l : lane) (D : scope) (st : vst) (s : lst) : Prop :=
  agreeG l st s /\ (forall x, In x (sc_v D) -> v_V st x l = l_V s x) /\
  (forall u, In u (sc_u D) -> v_U st u = l_U s u).

Definition scope_le (A B : scope) : Prop := incl (sc_v A) (sc_v B) /\ incl (sc_u A) (sc_u B).
Definition scope_ok (dv du : nat -> nat) (d : nat) (D : scope) : Prop :=
  (forall x, In x (sc_v D) -> dv x <= d) /\ (forall u, In u (sc_u D) -> du u <= d).
Definition scope_pres (dv du : nat -> nat) d F (D : scope) : Prop :=
  (forall x, In x (sc_v D) -> pv dv d F x) /\ (forall u, In u (sc_u D) -> pu du d F u).
Definition frozen_ok (dv du : nat -> nat) (d : nat) (F : frozen) : Prop :=
  (forall x, In x (fz_v F) -> dv x <= d) /\ (forall u, In u (fz_u F) -> du u <= d).
Definition frozen_le (A B : frozen) : Prop := incl (fz_v A) (fz_v B) /\ incl (fz_u A) (fz_u B).

(** A lane of the gang seen as an instance. *)
Definition lane_of (l : lane) (st : vst) : lst :=
  {| l_V := fun x => v_V st x l; l_U := v_U st; l_G := fun g => v_G st g l; l_rv := v_rv st l;
     l_tr := lane_trace l (v_tr st) |}.

Lemma agree_lane_of l D st : agree l D st (lane_of l st).
Proof. repeat split; auto. Qed.

(** The emission context is the one for an innermost loop / switch [k] at depth [d]. *)
Definition cfrel (k : kinfo) (d : nat) (cf : list (cftype * bool)) : Prop :=
  exists ifs rest, cf = ifs ++ ((if k_loop k then CLoop else CSwitch), k_uni k) :: rest /\
    Forall (fun e => fst e = CIf) ifs /\
    vdepth ifs + k_dl k = d.

Definition ctxrel (dv : nat -> nat) (K : option kinfo) (d : nat) (c : cx) : Prop :=
  c_dep c = dv /\ vdepth (c_cf c) = d /\
  match K with
  | None => True
  | Some k =>
      cfrel k d (c_cf c) /\ c_bt c = true /\ c_ct c = k_loop k /\
      c_bl c = negb (k_loop k && k_uni k) /\ c_cl c = (k_loop k && negb (k_uni k)) /\
      (k_loop k = false -> c_swu c = k_sc k)
  end.

Definition kcond (dv du : nat -> nat) (d : nat) (F : frozen) (K : option kinfo) : Prop :=
  match K with
  | None => True
  | Some k =>
      k_dl k <= d /\
      (k_uni k = false -> scope_pres dv du d F (k_db k) /\
                          (k_hasc k = true -> scope_pres dv du d F (k_dc k))) /\
      (k_uni k = true -> k_hasc k = false) /\
      (k_loop k = false -> k_hasc k = false) /\
      (k_uni k = false -> 0 < k_dl k)
  end.

(** The variables needed after a break / continue are in scope. *)
Definition kscope (K : option kinfo) (D : scope) : Prop :=
  match K with None => True | Some k => scope_le (k_db k) D /\ scope_le (k_dc k) D end.

(** Bits recorded for a lane, and the construct's flags. *)
Definition bits_ok (K : option kinfo) (st : vst) (l : lane) : Prop :=
  (v_mask st l = true -> v_brk st l = false /\ v_cnt st l = false /\ v_ret st l = false) /\
  match K with
  | None => v_brk st l = false /\ v_cnt st l = false
  | Some k => (k_hasc k = false -> v_cnt st l = false) /\ (k_uni k = true -> v_brk st l = false)
  end.

Definition inv (w : nat) (K : option kinfo) (d : nat) (c : cx) (st : vst) : Prop :=
  forall l, l < w -> c_fm c l = true ->
    bits_ok K st l /\
    (d = 0 -> v_mask st l = true \/ v_ret st l = true) /\
    match K with
    | None => True
    | Some k =>
        (v_mask st l = true -> c_be c l = true) /\
        (d = k_dl k -> k_loop k || k_sc k = true -> c_be c l = true ->
         v_mask st l = true \/ v_brk st l = true \/ v_cnt st l = true \/ v_ret st l = true)
    end.

(** An instance has executed break / continue / return and its lane has been switched off. *)
Definition rec0 (K : option kinfo) (ol : lout) (l : lane) (st : vst) (s : lst) : Prop :=
  match ol with
  | LNorm => False
  | LBrk =>
      exists k, K = Some k /\ k_uni k = false /\ v_brk st l = true /\ v_cnt st l = false /\
        v_ret st l = false /\ agree l (k_db k) st s
  | LCont =>
      exists k, K = Some k /\ k_uni k = false /\ k_hasc k = true /\ v_brk st l = false /\
        v_cnt st l = true /\ v_ret st l = false /\ agree l (k_dc k) st s
  | LRet => v_brk st l = false /\ v_cnt st l = false /\ v_ret st l = true /\ agreeG l st s
  end.

Definition rec K ol l st s : Prop := v_mask st l = false /\ rec0 K ol l st s.

Definition outrel (K : option kinfo) (out : vout) (ol : lout) (l : lane) (D : scope) (st : vst) (s : lst)
  : Prop :=
  match out with
  | VNorm => (ol = LNorm /\ v_mask st l = true /\ agree l D st s) \/ rec K ol l st s
  | VBrk =>
      (ol = LBrk /\ v_mask st l = true /\ exists k, K = Some k /\ agree l (k_db k) st s) \/
      (rec K ol l st s /\ ol <> LCont)
  | VCont =>
      (ol = LCont /\ v_mask st l = true /\ exists k, K = Some k /\ agree l (k_dc k) st s) \/
      rec K ol l st s
  | VRet => ol = LRet /\ agreeG l st s
  end.

(** After a jump to the break or continue target no lane is left behind. *)
Definition jumped (w : nat) (K : option kinfo) (c : cx) (st : vst) : Prop :=
  exists k, K = Some k /\
    forall l, l < w -> c_fm c l = true ->
      bits_ok K st l /\
      (c_be c l = true ->
       v_mask st l = true \/ v_brk st l = true \/ v_cnt st l = true \/ v_ret st l = true).

Definition post (w : nat) dv du K d F (D D' : scope) (c : cx) (st : vst) (out : vout) (st' : vst)
    (R : lane -> lst -> option (lout * lst)) : Prop :=
  uframe du d F st st' /\
  (forall l, l < w -> c_fm c l = false -> gframe l st st') /\
  (forall l, l < w -> c_fm c l = true -> v_mask st l = false -> framex out dv d F l st st') /\
  (forall l, l < w -> c_fm c l = true -> v_mask st l = true -> forall s, agree l D st s ->
     exists ol s', R l s = Some (ol, s') /\ outrel K out ol l D' st' s') /\
  (out = VNorm -> inv w K d c st') /\
  (out = VBrk \/ out = VCont -> jumped w K c st') /\
  (out = VBrk -> forall k, K = Some k -> k_hasc k = false) /\
  (out = VCont -> forall k, K = Some k -> k_loop k = true) /\
  (out = VRet -> forall l, l < w -> c_fm c l = true -> v_mask st l = true \/ v_ret st l = true).

(** ** Lemmas about frames and agreement *)

Lemma gframe_refl l st : gframe l st st.
Proof. split; auto. Qed.

Lemma gframe_trans l a b c : gframe l a b -> gframe l b c -> gframe l a c.
Proof.
  intros [H1 H2] [H3 H4]. split; [intros; rewrite H3; auto | congruence].
Qed.

Lemma frame0_refl dv d F l st : frame0 dv d F l st st.
Proof. repeat split; auto. Qed.

Lemma frame0_trans dv d F l a b c : frame0 dv d F l a b -> frame0 dv d F l b c -> frame0 dv d F l a c.
Proof.
  intros (A1 & A2 & A3 & A4 & A5 & A6) (B1 & B2 & B3 & B4 & B5 & B6).
  repeat split; try congruence; try (eapply gframe_trans; eauto).
  intros x Hx. rewrite B6; auto.
Qed.

Lemma uframe_refl du d F st : uframe du d F st st.
Proof. intros u _; auto. Qed.

Lemma uframe_trans du d F a b c : uframe du d F a b -> uframe du d F b c -> uframe du d F a c.
Proof. intros H1 H2 u Hu. rewrite H2; auto. Qed.

Lemma pv_mono dv d d' F F' x : d <= d' -> frozen_le F F' -> pv dv d F x -> pv dv d' F' x.
Proof. intros Hd [H1 _] [H|H]; [left; lia | right; auto]. Qed.

Lemma pu_mono du d d' F F' x : d <= d' -> frozen_le F F' -> pu du d F x -> pu du d' F' x.
Proof. intros Hd [_ H1] [H|H]; [left; lia | right; auto]. Qed.

Lemma frozen_le_refl F : frozen_le F F.
Proof. split; apply incl_refl. Qed.

Lemma frame0_weaken dv d d' F F' l a b : d <= d' -> frozen_le F F' -> frame0 dv d' F' l a b -> frame0 dv d F l a b.
Proof.
  intros Hd HF (A1 & A2 & A3 & A4 & A5 & A6). repeat split; auto; try apply A5.
  intros x Hx. apply A6. eapply pv_mono; eauto.
Qed.

Lemma frame_weaken dv d d' F F' l a b : d <= d' -> frozen_le F F' -> frame dv d' F' l a b -> frame dv d F l a b.
Proof. intros Hd HF [H1 H2]. split; auto. eapply frame0_weaken; eauto. Qed.

Lemma uframe_weaken du d d' F F' a b : d <= d' -> frozen_le F F' -> uframe du d' F' a b -> uframe du d F a b.
Proof. intros Hd HF H u Hu. apply H. eapply pu_mono; eauto. Qed.

Lemma agreeG_frame dv d F l a b s : frame0 dv d F l a b -> agreeG l a s -> agreeG l b s.
Proof.
  intros (A1 & A2 & A3 & A4 & [A5 A5'] & A6) (B1 & B2 & B3). repeat split; try congruence.
Qed.

Lemma frame_framex out dv d F l a b : frame dv d F l a b -> framex out dv d F l a b.
Proof.
  intros H. destruct out; cbn [framex]; auto. destruct H as (_ & _ & _ & _ & A4 & A5 & _). auto.
Qed.

Lemma framex_weaken out dv d d' F F' l a b :
  d <= d' -> frozen_le F F' -> framex out dv d' F' l a b -> framex out dv d F l a b.
Proof. intros Hd HF. destruct out; cbn [framex]; auto; eapply frame_weaken; eauto. Qed.

Lemma framex_trans out dv d F l a b c :
  frame0 dv d F l a b -> framex out dv d F l b c -> framex out dv d F l a c.
Proof.
  intros H. pose proof H as (A1 & A2 & A3 & A4 & A5 & A6). destruct out; cbn [framex].
  1-3: intros [M H']; split; auto; eapply frame0_trans; eauto.
  intros [H1 H2]. split; [eapply gframe_trans; eauto | congruence].
Qed.

Lemma framex_agreeG out dv d F l a b s : framex out dv d F l a b -> agreeG l a s -> agreeG l b s.
Proof.
  destruct out; cbn [framex].
  1-3: intros [_ H]; eapply agreeG_frame; eauto.
  intros [[H1 H2] H3] (B1 & B2 & B3). repeat split; try congruence.
Qed.

Lemma framex_gframe out dv d F l a b : framex out dv d F l a b -> gframe l a b.
Proof.
  destruct out; cbn [framex]; try (intros [_ (_ & _ & _ & _ & H & _)]; exact H). intros [H _]; exact H.
Qed.

Lemma agree_frame dv du d F l D a b s :
  frame0 dv d F l a b -> uframe du d F a b -> scope_pres dv du d F D -> agree l D a s -> agree l D b s.
Proof.
  intros H1 H2 [P1 P2] (G & AV & AU). split; [eapply agreeG_frame; eauto|].
  destruct H1 as (_ & _ & _ & _ & _ & A6). split; intros x Hx.
  - rewrite A6; auto.
  - rewrite H2; auto.
Qed.

Lemma agree_le l A B st s : scope_le A B -> agree l B st s -> agree l A st s.
Proof. intros [H1 H2] (G & AV & AU). repeat split; try apply G; auto. Qed.

Lemma scope_le_refl D : scope_le D D.
Proof. split; apply incl_refl. Qed.

Lemma scope_le_trans A B C : scope_le A B -> scope_le B C -> scope_le A C.
Proof. intros [? ?] [? ?]; split; eapply incl_tran; eauto. Qed.

Lemma scope_pres_mono dv du d d' F F' D :
  d <= d' -> frozen_le F F' -> scope_pres dv du d F D -> scope_pres dv du d' F' D.
Proof.
  intros Hd HF [H1 H2]; split; intros x Hx; [eapply pv_mono | eapply pu_mono]; eauto.
Qed.

Lemma scope_ok_pres dv du d F D : scope_ok dv du d D -> scope_pres dv du (S d) F D.
Proof. intros [H1 H2]; split; intros x Hx; left; [apply H1 in Hx | apply H2 in Hx]; lia. Qed.

Lemma scope_ok_mono dv du d d' D : d <= d' -> scope_ok dv du d D -> scope_ok dv du d' D.
Proof. intros Hd [H1 H2]; split; intros x Hx; [apply H1 in Hx | apply H2 in Hx]; lia. Qed.

Lemma frozen_ok_mono dv du d d' F : d <= d' -> frozen_ok dv du d F -> frozen_ok dv du d' F.
Proof. intros Hd [H1 H2]; split; intros x Hx; [apply H1 in Hx | apply H2 in Hx]; lia. Qed.

Lemma kcond_mono dv du d d' F F' K :
  d <= d' -> frozen_le F F' -> kcond dv du d F K -> kcond dv du d' F' K.
Proof.
  intros Hd HF. destruct K as [k|]; auto. intros (H1 & H2 & H3 & H4 & H5).
  split; [lia|]. split; [|split; auto]. intros HU. destruct (H2 HU) as [P Q].
  split; [|intros HC]; eapply scope_pres_mono; eauto.
Qed.

Lemma rec0_frame dv du d F K ol l a b s :
  kcond dv du d F K -> frame0 dv d F l a b -> uframe du d F a b -> rec0 K ol l a s -> rec0 K ol l b s.
Proof.
  intros HK HF HU. pose proof HF as (A1 & A2 & A3 & A4 & A5 & A6).
  destruct ol; cbn [rec0]; auto.
  - intros (k & EK & U & B1 & B2 & B3 & AG). subst K. exists k.
    destruct HK as (K1 & K2 & K3 & K4 & K5). destruct (K2 U) as [P _].
    repeat split; auto; try congruence. all: eapply agree_frame; eauto.
  - intros (k & EK & U & HC & B1 & B2 & B3 & AG). subst K. exists k.
    destruct HK as (K1 & K2 & K3 & K4 & K5). destruct (K2 U) as [_ P].
    repeat split; auto; try congruence. all: eapply agree_frame; eauto.
  - intros (B1 & B2 & B3 & AG). rewrite A1, A2, A3. repeat split; auto.
    all: eapply agreeG_frame; eauto.
Qed.

(** ** Expressions *)

Lemma ueval_agree l D st s e : agree l D st s -> uexpr_ok D e = true -> ueval (v_U st) e = ueval (l_U s) e.
Proof.
  intros (G & AV & AU). induction e; cbn [uexpr_ok ueval]; auto; intros H.
  - apply AU, mem_In, H.
  - apply andb_prop in H as [H1 H2]. rewrite IHe1, IHe2; auto.
Qed.

Lemma xeval_agree l D st s e : agree l D st s -> vexpr_ok D e = true -> xeval st l e = leval l s e.
Proof.
  intros A. induction e as [e|[x|b x]| |o e1 IH1 e2 IH2]; cbn [vexpr_ok xeval leval]; auto; intros H.
  - eapply ueval_agree; eauto.
  - apply A, mem_In, H.
  - apply A.
  - apply andb_prop in H as [H1 H2]. rewrite IH1, IH2; auto.
Qed.

Lemma teval_agree l D st s t : agree l D st s -> test_ok D t = true -> teval st t l = ltest l s t.
Proof.
  intros A. destruct t; cbn [test_ok teval ltest]; intros H.
  - erewrite ueval_agree; eauto.
  - erewrite xeval_agree; eauto.
Qed.

Lemma lane_trace_app l a b : lane_trace l (a ++ b) = lane_trace l a ++ lane_trace l b.
Proof.
  induction a as [|[k f] a IH]; cbn; auto. destruct (f l); cbn; rewrite IH; auto.
Qed.

(** ** The emission context *)

Lemma vdepth_cons t (u : bool) cf : vdepth ((t, u) :: cf) = (if u then 0 else 1) + vdepth cf.
Proof. unfold vdepth; cbn. destruct u; cbn; auto. Qed.

Lemma vdepth_app a b : vdepth (a ++ b) = vdepth a + vdepth b.
Proof. unfold vdepth. rewrite filter_app, app_length. auto. Qed.

Lemma cfrel_in_switch k d cf : cfrel k d cf -> in_switch cf = negb (k_loop k).
Proof.
  intros (ifs & rest & E & HF & _). subst cf.
  induction HF as [|[t u] ifs Ht HF IH]; cbn.
  - destruct (k_loop k); auto.
  - cbn in Ht. subst t. auto.
Qed.

Lemma cfrel_ifs k d cf :
  cfrel k d cf -> ifs_all_uniform (if k_loop k then CLoop else CSwitch) cf = (d =? k_dl k).
Proof.
  intros (ifs & rest & E & HF & Hd). subst cf d.
  induction HF as [|[t u] ifs Ht HF IH]; cbn [app ifs_all_uniform].
  - cbn [vdepth filter length plus]. change (vdepth [] + k_dl k) with (k_dl k). rewrite Nat.eqb_refl. destruct (k_loop k); auto.
  - cbn in Ht. subst t. rewrite vdepth_cons.
    assert (E : cftype_eqb CIf (if k_loop k then CLoop else CSwitch) = false) by (destruct (k_loop k); auto).
    rewrite E. destruct u; [exact IH|].
    symmetry. apply Nat.eqb_neq. lia.
Qed.

Lemma ctxrel_push_if dv K d c (u : bool) :
  ctxrel dv K d c -> ctxrel dv K ((if u then 0 else 1) + d) (push_if u c).
Proof.
  intros (E1 & E2 & HK). split; [auto|]. split.
  - cbn [push_if c_cf]. rewrite vdepth_cons, E2. auto.
  - destruct K as [k|]; auto. destruct HK as ((ifs & rest & E & HF & Hd) & R). split; [|exact R].
    exists ((CIf, u) :: ifs), rest. cbn [push_if c_cf]. rewrite E. repeat split; auto.
    rewrite vdepth_cons. lia.
Qed.

Lemma ctxrel_set_be dv K d c be : ctxrel dv K d c -> ctxrel dv K d (set_be be c).
Proof. intros H; exact H. Qed.

Lemma ctxrel_none dv K d c : ctxrel dv K d c -> ctxrel dv None d c.
Proof. intros (E1 & E2 & _). repeat split; auto. Qed.

Lemma ctxrel_push_loop dv K d c k :
  ctxrel dv K d c -> k_loop k = true -> k_dl k = (if k_uni k then 0 else 1) + d ->
  ctxrel dv (Some k) (k_dl k) (push_loop (k_uni k) c).
Proof.
  intros (E1 & E2 & HK) HL Hd. split; [auto|]. split.
  - cbn [push_loop c_cf]. rewrite vdepth_cons, E2. auto.
  - rewrite HL. cbn [push_loop c_cf c_bt c_ct c_bl c_cl andb]. split.
    + exists [], (c_cf c). rewrite HL. repeat split; auto.
    + repeat split; auto. discriminate.
Qed.

Lemma ctxrel_push_switch dv K d c k be :
  ctxrel dv K d c -> k_loop k = false -> k_dl k = (if k_uni k then 0 else 1) + d ->
  ctxrel dv (Some k) (k_dl k) (push_switch (k_uni k) (k_sc k) be c).
Proof.
  intros (E1 & E2 & HK) HL Hd. split; [auto|]. split.
  - cbn [push_switch c_cf]. rewrite vdepth_cons, E2. auto.
  - rewrite HL. cbn [push_switch c_cf c_bt c_ct c_bl c_cl andb]. split.
    + exists [], (c_cf c). rewrite HL. repeat split; auto.
    + repeat split; auto.
Qed.

(** ** Scopes computed by the check *)

Lemma chk_le dv du : forall s K d F D D', chk dv du K d F D s = Some D' -> scope_le D D'.
Proof.
  intros s. induction s; cbn [chk]; intros K d F D D' H;
    repeat match goal with
    | H : context [match chk ?a ?b ?c ?d ?e ?f ?g with _ => _ end] |- _ => destruct (chk a b c d e f g) eqn:?
    | H : (if ?b then _ else _) = _ |- _ => destruct b eqn:?
    | H : match ?K with Some _ => _ | None => _ end = _ |- _ => destruct K eqn:?
    | H : Some _ = Some _ |- _ => injection H as <-
    end; try discriminate; try apply scope_le_refl.
  - eapply scope_le_trans; eauto.
  - split; cbn; [apply incl_tl|]; apply incl_refl.
  - split; cbn; [|apply incl_tl]; apply incl_refl.
Qed.

Lemma chk_ok dv du : forall s K d F D D',
  chk dv du K d F D s = Some D' -> scope_ok dv du d D -> scope_ok dv du d D'.
Proof.
  intros s. induction s; cbn [chk]; intros K d F D D' H HO;
    repeat match goal with
    | H : context [match chk ?a ?b ?c ?d ?e ?f ?g with _ => _ end] |- _ => destruct (chk a b c d e f g) eqn:?
    | H : (if ?b then _ else _) = _ |- _ => destruct b eqn:?
    | H : match ?K with Some _ => _ | None => _ end = _ |- _ => destruct K eqn:?
    | H : Some _ = Some _ |- _ => injection H as <-
    end; try discriminate; auto.
  - eauto.
  - apply andb_prop in Heqb as [Heqb _]. apply andb_prop in Heqb as [Heqb _].
    apply andb_prop in Heqb as [_ Heqb]. apply Nat.eqb_eq in Heqb.
    destruct HO as [H1 H2]. split; cbn; auto. intros y [<-|Hy]; auto. lia.
  - apply andb_prop in Heqb as [Heqb _]. apply andb_prop in Heqb as [Heqb _].
    apply andb_prop in Heqb as [_ Heqb]. apply Nat.eqb_eq in Heqb.
    destruct HO as [H1 H2]. split; cbn; auto. intros y [<-|Hy]; auto. lia.
Qed.
