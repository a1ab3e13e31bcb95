(** The simulation theorem: gang execution of a checked program does what every active
    instance does on its own. *)
From Coq Require Import ZArith List Bool Arith Lia.
From Verif Require Import Bits SpmdModel SpmdSpec SpmdRel SpmdProofs SpmdIf SpmdLoop SpmdSwitch.
Import ListNotations.

Definition Pall (o : opts) (n : nat) : Prop :=
  Pexec o n /\ Ptop o n /\ Pbody o n /\ Prun o n /\ Psecs o n.

(** ** if *)

Lemma post_if_varying o n (coh : bool) e a b dv du K d F D c st out st' :
  (forall m, m < S n -> Pexec o m) ->
  vexec (S n) o c (SIf coh (TV e) a b) st = Some (out, st') ->
  chk dv du K d F D (SIf coh (TV e) a b) = Some D ->
  ctxrel dv K d c -> kcond dv du d F K -> kscope K D -> scope_ok dv du d D -> inv (o_width o) K d c st ->
  post (o_width o) dv du K d F D D c st out st' (fun l s0 => lexec (S n) (o_funs o) l (SIf coh (TV e) a b) s0).
Proof.
  intros IH HE HC HX HK HKS HO HI. cbn [chk test_ok] in HC.
  destruct (vexpr_ok D e) eqn:EV; [|discriminate].
  destruct (chk dv du K (S d) F D a) as [Da|] eqn:CA; [|discriminate].
  destruct (chk dv du K (S d) F D b) as [Db|] eqn:CB; [|discriminate]. clear HC.
  cbn [vexec] in HE. set (t := fun l : lane => is_true (xeval st l e)) in *.
  assert (FIN : forall m saved ma mb ra rb, m <= n ->
     vif m o c saved ma mb ra rb a b st = Some (out, st') ->
     (forall l, l < o_width o -> c_fm c l = true -> saved l = v_mask st l) ->
     (ra = true -> forall l, l < o_width o -> c_fm c l = true -> ma l = v_mask st l && t l) ->
     (ra = false -> forall l, l < o_width o -> c_fm c l = true -> v_mask st l && t l = false) ->
     (rb = true -> forall l, l < o_width o -> c_fm c l = true -> mb l = v_mask st l && negb (t l)) ->
     (rb = false -> forall l, l < o_width o -> c_fm c l = true -> v_mask st l && negb (t l) = false) ->
     post (o_width o) dv du K d F D D c st out st' (fun l s0 => lexec (S n) (o_funs o) l (SIf coh (TV e) a b) s0)).
  { intros m saved ma mb ra rb Hm HV H1 H2 H3 H4 H5. destruct m as [|m]; [discriminate|].
    eapply post_R; [|eapply (post_vif o m dv du K d F D Da Db c saved ma mb ra rb a b t); eauto; apply IH; lia].
    intros l s r Hl Hf Hma Hs HL. cbn [lexec ltest].
    rewrite <- (xeval_agree l D st s e Hs EV). change (is_true (xeval st l e)) with (t l).
    eapply lexec_mono; [|exact HL]. lia. }
  assert (MIX : forall m, m <= n -> vif_mixed m o c (v_mask st) t a b st = Some (out, st') ->
     post (o_width o) dv du K d F D D c st out st' (fun l s0 => lexec (S n) (o_funs o) l (SIf coh (TV e) a b) s0)).
  { intros m Hm HV. destruct m as [|m]; [discriminate|]. cbn [vif_mixed] in HV.
    apply (FIN m _ _ _ _ _ ltac:(lia) HV); auto.
    - intros E l Hl Hf. rewrite m_any_false in E. specialize (E l Hl). unfold mand in E. rewrite Hf, andb_true_r in E. auto.
    - intros E l Hl Hf. rewrite m_any_false in E. specialize (E l Hl). unfold mand, mnot in E. rewrite Hf, andb_true_r in E. auto. }
  destruct coh.
  - destruct (m_all (o_width o) (full c st)) eqn:EA; [|apply (MIX n); auto].
    rewrite m_all_true in EA.
    assert (ON : forall l, l < o_width o -> v_mask st l = true).
    { intros l Hl. specialize (EA l Hl). unfold full, mand in EA. apply andb_prop in EA. tauto. }
    destruct (m_all (o_width o) t) eqn:ET; [|destruct (m_any (o_width o) t) eqn:EN].
    + rewrite m_all_true in ET. apply (FIN n _ _ _ _ _ (le_n n) HE).
      * intros l Hl _. rewrite ON; auto.
      * intros _ l Hl _. rewrite ON, ET; auto.
      * discriminate.
      * discriminate.
      * intros _ l Hl _. rewrite ET by auto. apply andb_false_r.
    + apply (FIN n _ _ _ _ _ (le_n n) HE); try discriminate.
      * intros l Hl _. rewrite ON; auto.
      * intros _ l Hl _. rewrite ON; auto.
      * intros _ l Hl _. rewrite ON; auto.
    + rewrite m_any_false in EN. apply (FIN n _ _ _ _ _ (le_n n) HE); try discriminate.
      * intros l Hl _. rewrite ON; auto.
      * intros _ l Hl _. rewrite EN by auto. apply andb_false_r.
      * intros _ l Hl _. rewrite ON, EN; auto.
  - destruct (predicated o a b); [|apply (MIX n); auto].
    apply (FIN n _ _ _ _ _ (le_n n) HE); try discriminate; auto.
Qed.

(** ** calls *)

Lemma bind_map (l : lane) (A : Type) (g : A -> lane -> Z) (g' : A -> Z) (args : list A) :
  (forall e, In e args -> g e l = g' e) -> forall k (dv : nat -> lane -> Z) (dz : nat -> Z),
  (forall x, dv x l = dz x) -> forall x, bind k (map g args) dv x l = bind k (map g' args) dz x.
Proof.
  induction args as [|a r IH]; cbn [map bind]; intros HG k dv dz HD x; auto.
  apply IH.
  - intros; apply HG; right; auto.
  - intros y. unfold upd. destruct (y =? k); auto. apply HG; left; auto.
Qed.

Lemma bind_map_u (A : Type) (g g' : A -> Z) (args : list A) :
  (forall e, In e args -> g e = g' e) -> forall k d x, bind k (map g args) d x = bind k (map g' args) d x.
Proof. intros H k d x. rewrite (map_ext_in g g' args); auto. Qed.

Lemma forallb_seq_eq f n : forallb (fun x => f x =? 0) (seq 0 n) = true -> forall x, In x (seq 0 n) -> f x <= 0.
Proof. rewrite forallb_forall. intros H x Hx. apply H in Hx. apply Nat.eqb_eq in Hx. lia. Qed.

(** A function body run from its entry. *)
Lemma post_fun o n fd fm st out st' :
  Pexec o n -> chk_fun fd = true ->
  vexec n o (fun_cx fm (dep_of (f_body fd))) (f_body fd) st = Some (out, st') ->
  (forall l, v_mask st l = true /\ v_ret st l = false /\ v_brk st l = false /\ v_cnt st l = false) ->
  (out = VNorm \/ out = VRet) /\
  (forall l, l < o_width o -> fm l = false -> gframe l st st') /\
  (forall l, l < o_width o -> fm l = true -> forall s,
     agreeG l st s -> (forall x, v_V st x l = l_V s x) -> (forall u, v_U st u = l_U s u) ->
     exists ol s', lexec n (o_funs o) l (f_body fd) s = Some (ol, s') /\ (ol = LNorm \/ ol = LRet) /\ agreeG l st' s').
Proof.
  intros IH HC HE HB. unfold chk_fun in HC. apply andb_prop in HC as [HC HC3]. apply andb_prop in HC as [HC1 HC2].
  set (dv := dep_of (f_body fd)) in *. set (du := udep_of (f_body fd)) in *.
  set (D := {| sc_v := seq 0 (f_nv fd); sc_u := seq 0 (f_nu fd) |}) in *.
  destruct (chk dv du None 0 no_frozen D (f_body fd)) as [D'|] eqn:EC; [|discriminate].
  assert (P : post (o_width o) dv du None 0 no_frozen D D' (fun_cx fm dv) st out st'
                (fun l s0 => lexec n (o_funs o) l (f_body fd) s0)).
  { apply IH; auto.
    - repeat split; auto.
    - exact I.
    - exact I.
    - split; intros x Hx; cbn in Hx; [eapply forallb_seq_eq in HC1|eapply forallb_seq_eq in HC2]; eauto.
    - intros l Hl Hf. destruct (HB l) as (Z1 & Z2 & Z3 & Z4). repeat split; auto. }
  pose proof (post_none_out _ _ _ _ _ _ _ _ _ _ _ _ P) as O.
  destruct P as (U & G & Fr & Ac & _). split; auto. split; [exact G|].
  intros l Hl Hf s A1 A2 A3. destruct (HB l) as (Z1 & _).
  destruct (Ac l Hl Hf Z1 s) as (ol & s' & E & X).
  { split; auto. }
  exists ol, s'. split; auto. destruct O as [ -> | -> ]; cbn [outrel] in X.
  - destruct X as [(-> & _ & AG)|[_ R0]]; [split; auto; apply AG|].
    destruct ol; cbn [rec0] in R0; try tauto; destruct R0 as (k & X & _); discriminate.
  - destruct X; auto.
Qed.

Lemma entry_mask_eq o b fm l : l < o_width o -> entry_mask o b fm l = fm l.
Proof.
  intros Hl. unfold entry_mask. destruct (check_mask_at_start o b && m_all (o_width o) fm) eqn:E; auto.
  apply andb_prop in E as [_ E]. rewrite m_all_true in E. rewrite E; auto.
Qed.

Lemma post_call o n x f us vs dv du K d F D c st out st' :
  prog_ok (o_funs o) = true -> Pexec o n ->
  vexec (S n) o c (SCall x f us vs) st = Some (out, st') ->
  chk dv du K d F D (SCall x f us vs) = Some D ->
  ctxrel dv K d c -> scope_ok dv du d D -> inv (o_width o) K d c st ->
  post (o_width o) dv du K d F D D c st out st' (fun l s0 => lexec (S n) (o_funs o) l (SCall x f us vs) s0).
Proof.
  intros HPK IH HE HC HX HO HI. cbn [chk] in HC.
  destruct (forallb (uexpr_ok D) us && forallb (vexpr_ok D) vs && assign_ok dv d F D x) eqn:EC; [|discriminate].
  apply andb_prop in EC as [EC EA]. apply andb_prop in EC as [EU EV]. clear HC.
  rewrite forallb_forall in EU, EV.
  cbn [vexec] in HE. destruct (nth_error (o_funs o) f) as [fd|] eqn:EF; [|discriminate].
  set (c1 := fun_cx (entry_mask o (f_body fd) (full c st)) (dep_of (f_body fd))) in *.
  set (sf := fun_state (bind 0 (map (ueval (v_U st)) us) (fun _ => 0%Z))
               (bind 0 (map (fun e l => xeval st l e) vs) (fun _ _ => 0%Z)) st) in *.
  destruct (vexec n o c1 (f_body fd) sf) as [[out1 st1]|] eqn:E1; [|discriminate].
  assert (CF : chk_fun fd = true).
  { unfold prog_ok in HPK. rewrite forallb_forall in HPK. apply HPK. eapply nth_error_In; eauto. }
  destruct (post_fun o n fd _ sf out1 st1 IH CF E1) as (O & G & A).
  { intros l. repeat split. }
  assert (HE' : out = VNorm /\ st' = store c (set_tr (v_tr st1) (set_G (v_G st1) st)) x (v_rv st1)).
  { destruct O as [ -> | -> ]; injection HE as <- <-; auto. }
  destruct HE' as [-> ->]. clear HE.
  assert (EQ : forall l, l < o_width o -> entry_mask o (f_body fd) (full c st) l = v_mask st l && c_fm c l).
  { intros l Hl. rewrite entry_mask_eq; auto. }
  apply (post_store _ dv du K d F D c st (set_tr (v_tr st1) (set_G (v_G st1) st)) x); auto.
  - intros l Hl Hm. rewrite <- EQ in Hm by auto. destruct (G l Hl Hm) as [G1 G2]. split; auto.
  - intros l Hl Hf Hm s Hs.
    assert (Hfm : entry_mask o (f_body fd) (full c st) l = true) by (rewrite EQ, Hf, Hm; auto).
    destruct Hs as ((A1 & A2 & A3) & A4 & A5).
    assert (Hs : agree l D st s) by (repeat split; auto).
    destruct (A l Hl Hfm {| l_V := bind 0 (map (leval l s) vs) (fun _ => 0%Z);
                            l_U := bind 0 (map (ueval (l_U s)) us) (fun _ => 0%Z);
                            l_G := l_G s; l_rv := 0; l_tr := l_tr s |}) as (ol & s1 & E & OL & (B1 & B2 & B3)).
    + repeat split; auto.
    + intros y. cbn. apply bind_map; auto. intros e He. eapply xeval_agree; eauto.
    + intros y. cbn. apply bind_map_u. intros e He. eapply ueval_agree; eauto.
    + exists {| l_V := l_V s; l_U := l_U s; l_G := l_G s1; l_rv := l_rv s; l_tr := l_tr s1 |}.
      split; [repeat split; auto|].
      cbn [lexec]. rewrite EF, E, B3. destruct OL; subst ol; auto.
Qed.

(** ** All statements *)

Lemma uniform_cf_TU t b : uniform_cf t b = true -> exists e, t = TU e.
Proof. destruct t; cbn; eauto; discriminate. Qed.

Lemma inv_loop_start w K d d' c c1 st :
  inv w K d c st -> c_fm c1 = c_fm c -> (d' = 0 -> d = 0) -> inv w None d' c1 (set_bc all_off all_off st).
Proof.
  intros HI E Hd l Hl Hf. rewrite E in Hf. destruct (HI l Hl Hf) as ((B1 & _) & W2 & _).
  split; [split|split].
  - intros X. cbn in X. destruct (B1 X) as (_ & _ & Z). repeat split; auto.
  - cbn. auto.
  - intros X. apply W2; auto.
  - exact I.
Qed.

Lemma inv_switch_start w K d d' c c1 k st :
  inv w K d c st -> c_fm c1 = c_fm c -> c_be c1 = full c st -> (d' = 0 -> d = 0) ->
  inv w (Some k) d' c1 (set_bc all_off all_off st).
Proof.
  intros HI E EB Hd l Hl Hf. rewrite E in Hf. destruct (HI l Hl Hf) as ((B1 & _) & W2 & _).
  split; [split|split].
  - intros X. cbn in X. destruct (B1 X) as (_ & _ & Z). repeat split; auto.
  - cbn. auto.
  - intros X. apply W2; auto.
  - rewrite EB. split.
    + intros X. cbn in X. unfold full, mand. rewrite X, Hf. auto.
    + intros _ _ X. unfold full, mand in X. apply andb_prop in X as [X _]. left. exact X.
Qed.

Lemma frozen_le_add A B : frozen_le B (add_frozen A B).
Proof. split; cbn; apply incl_appr, incl_refl. Qed.

Lemma at_depth_pres dv du d F D : scope_ok dv du d D -> scope_pres dv du d (add_frozen (at_depth dv du d D) F) D.
Proof.
  intros [H1 H2]. split; intros x Hx.
  - specialize (H1 x Hx). destruct (Nat.eq_dec (dv x) d) as [E|E]; [|left; lia].
    right. cbn. apply in_or_app. left. apply filter_In. split; auto. apply Nat.eqb_eq; auto.
  - specialize (H2 x Hx). destruct (Nat.eq_dec (du x) d) as [E|E]; [|left; lia].
    right. cbn. apply in_or_app. left. apply filter_In. split; auto. apply Nat.eqb_eq; auto.
Qed.

Lemma Pexec_S o n : prog_ok (o_funs o) = true -> (forall m, m < S n -> Pall o m) -> Pexec o (S n).
Proof.
  intros HPK IH dv du K d F D D' c s st out st' HE HC HX HK HKS HO HI.
  pose proof (IH n (Nat.lt_succ_diag_r n)) as (IHe & IHt & IHb & IHr & IHs).
  destruct s as [|a b|x e|u e|x e|u e|k e|coh t a b|coh body t|coh i t step body|t ss| | |e|x f us vs].
  - (* skip *)
    injection HE as <- <-. injection HC as <-. apply post_refl; auto.
  - (* sequence *)
    cbn [chk] in HC. destruct (chk dv du K d F D a) as [D1|] eqn:CA; [|discriminate].
    cbn [vexec] in HE. destruct (vexec n o c a st) as [[out1 st1]|] eqn:E1; [|discriminate].
    pose proof (IHe dv du K d F D D1 c a st out1 st1 E1 CA HX HK HKS HO HI) as P1.
    assert (CASE : (out1 <> VNorm /\ out1 = out /\ st1 = st') \/ out1 = VNorm).
    { destruct out1; auto; injection HE as <- <-; left; split; auto; discriminate. }
    destruct CASE as [(NN & -> & ->)| -> ].
    + eapply post_seq_out; [exact NN|exact P1|]. intros l s ol s' E NE. cbn [lexec]. rewrite E.
      destruct ol; auto. congruence.
    + assert (HI1 : inv (o_width o) K d c st1) by (apply P1; auto).
      assert (HKS1 : kscope K D1).
      { destruct K as [k|]; auto. destruct HKS. split; eapply scope_le_trans; eauto; eapply chk_le; eauto. }
      pose proof (IHe dv du K d F D1 D' c b st1 out st' HE HC HX HK HKS1 (chk_ok _ _ _ _ _ _ _ _ CA HO) HI1) as P2.
      eapply post_R; [|eapply post_seq; [exact HK|exact P1|exact P2]].
      intros l s r0 _ _ _ _. unfold seqR. cbn [lexec].
      destruct (lexec n (o_funs o) l a s) as [[[] s1]|]; auto.
  - (* varying declaration *)
    cbn [chk] in HC. destruct (vexpr_ok D e && (dv x =? d) && negb (mem x (fz_v F)) && negb (mem x (sc_v D))) eqn:EC; [|discriminate].
    injection HC as <-. apply andb_prop in EC as [EC E4]. apply andb_prop in EC as [EC E3]. apply andb_prop in EC as [E1 E2].
    apply Nat.eqb_eq in E2. injection HE as <- <-.
    apply post_basic; auto.
    + intros u _; auto.
    + intros; split; auto.
    + intros l Hl Hf Hm y Hy. cbn. unfold upd. destruct (y =? x) eqn:Ey; auto. apply Nat.eqb_eq in Ey. subst y.
      exfalso. destruct Hy as [Hy|Hy]; [lia|]. apply mem_In in Hy. rewrite Hy in E3. discriminate.
    + intros l Hl Hf Hm s Hs. eexists. split; [reflexivity|]. pose proof Hs as (A1 & A2 & A3).
      split; [exact A1|]. split; [|exact A3]. intros y Hy. cbn. unfold upd. cbn in Hy.
      destruct (y =? x) eqn:Ey.
      * eapply xeval_agree; eauto.
      * apply Nat.eqb_neq in Ey. destruct Hy as [Hy|Hy]; [congruence|auto].
  - (* uniform declaration *)
    cbn [chk] in HC. destruct (uexpr_ok D e && (du u =? d) && negb (mem u (fz_u F)) && negb (mem u (sc_u D))) eqn:EC; [|discriminate].
    injection HC as <-. apply andb_prop in EC as [EC E4]. apply andb_prop in EC as [EC E3]. apply andb_prop in EC as [E1 E2].
    apply Nat.eqb_eq in E2. injection HE as <- <-.
    apply post_basic; auto.
    + intros y Hy. cbn. unfold upd. destruct (y =? u) eqn:Ey; auto. apply Nat.eqb_eq in Ey. subst y.
      exfalso. destruct Hy as [Hy|Hy]; [lia|]. apply mem_In in Hy. rewrite Hy in E3. discriminate.
    + intros; split; auto.
    + intros l Hl Hf Hm s Hs. eexists. split; [reflexivity|]. pose proof Hs as (A1 & A2 & A3).
      split; [exact A1|]. split; [exact A2|]. intros y Hy. cbn. unfold upd. cbn in Hy.
      destruct (y =? u) eqn:Ey.
      * eapply ueval_agree; eauto.
      * apply Nat.eqb_neq in Ey. destruct Hy as [Hy|Hy]; [congruence|auto].
  - (* assignment *)
    cbn [chk] in HC. destruct (vexpr_ok D e && assign_ok dv d F D x) eqn:EC; [|discriminate].
    injection HC as <-. apply andb_prop in EC as [E1 E2]. injection HE as <- <-.
    apply (post_store _ dv du K d F D c st st x); auto.
    + intros; apply gframe_refl.
    + intros l Hl Hf Hm s Hs. exists s. split; auto. cbn [lexec]. rewrite (xeval_agree l D st s e); auto.
  - (* uniform assignment *)
    cbn [chk] in HC. destruct (uexpr_ok D e && mem u (sc_u D) && (du u =? d) && negb (mem u (fz_u F))) eqn:EC; [|discriminate].
    injection HC as <-. apply andb_prop in EC as [EC E4]. apply andb_prop in EC as [EC E3]. apply andb_prop in EC as [E1 E2].
    apply Nat.eqb_eq in E3. injection HE as <- <-.
    apply post_basic; auto.
    + intros y Hy. cbn. unfold upd. destruct (y =? u) eqn:Ey; auto. apply Nat.eqb_eq in Ey. subst y.
      exfalso. destruct Hy as [Hy|Hy]; [lia|]. apply mem_In in Hy. rewrite Hy in E4. discriminate.
    + intros; split; auto.
    + intros l Hl Hf Hm s Hs. eexists. split; [reflexivity|]. pose proof Hs as (A1 & A2 & A3).
      split; [exact A1|]. split; [exact A2|]. intros y Hy. cbn. unfold upd.
      destruct (y =? u) eqn:Ey; auto. eapply ueval_agree; eauto.
  - (* effect *)
    cbn [chk] in HC. destruct (vexpr_ok D e) eqn:EV; [|discriminate]. injection HC as <-. injection HE as <- <-.
    apply post_basic; auto.
    + intros u _; auto.
    + intros l Hl Hm. split; auto. cbn. rewrite lane_trace_app. cbn. unfold full, mand. rewrite Hm. apply app_nil_r.
    + intros l Hl Hf Hm s Hs. eexists. split; [reflexivity|]. pose proof Hs as ((A1 & A2 & A3) & A4 & A5).
      repeat split; auto. cbn. rewrite lane_trace_app, A2. cbn. unfold full, mand. rewrite Hm, Hf. cbn.
      rewrite (xeval_agree l D st s e); auto.
  - (* if *)
    destruct t as [e|e].
    + cbn [chk test_ok] in HC. destruct (uexpr_ok D e) eqn:EV; [|discriminate].
      destruct (chk dv du K d F D a) as [Da|] eqn:CA; [|discriminate].
      destruct (chk dv du K d F D b) as [Db|] eqn:CB; [|discriminate]. injection HC as <-.
      cbn [vexec] in HE. pose proof (ctxrel_push_if dv K d c true HX) as HX1. cbn [plus] in HX1.
      assert (P : exists D1, scope_le D D1 /\ post (o_width o) dv du K d F D D1 (push_if true c) st out st'
                 (fun l s0 => lexec n (o_funs o) l (if is_true (ueval (v_U st) e) then a else b) s0)).
      { destruct (is_true (ueval (v_U st) e)).
        - exists Da. split; [eapply chk_le; eauto|]. eapply IHe; eauto.
        - exists Db. split; [eapply chk_le; eauto|]. eapply IHe; eauto. }
      destruct P as (D1 & LE & P).
      assert (P' : post (o_width o) dv du K d F D D1 c st out st'
                 (fun l s0 => lexec n (o_funs o) l (if is_true (ueval (v_U st) e) then a else b) s0)) by exact P.
      clear P. eapply post_scope; [apply scope_le_refl|exact LE|].
      eapply post_R; [|exact P']. intros l s r Hl Hf Hm Hs HL. cbn [lexec ltest].
      rewrite <- (ueval_agree l D st s e Hs EV). exact HL.
    + assert (D' = D).
      { cbn [chk] in HC. destruct (test_ok D (TV e)); [|discriminate].
        destruct (chk dv du K (S d) F D a); [|discriminate].
        destruct (chk dv du K (S d) F D b); [|discriminate]. congruence. }
      subst D'. eapply post_if_varying; eauto. intros m Hm. apply IH; auto.
  - (* do *)
    cbn [chk] in HC. cbn [vexec] in HE.
    set (u := uniform_cf t body) in *. set (d' := if u then d else S d) in *.
    set (k := {| k_loop := true; k_uni := u; k_dl := d'; k_hasc := negb u && has_continue body;
                 k_sc := false; k_db := D; k_dc := D |}) in *.
    destruct (test_ok D t) eqn:ET; [|discriminate].
    destruct (chk dv du (Some k) d' F D body) as [Dx|] eqn:CB; [|discriminate]. injection HC as <-.
    assert (Hd' : d' = 0 -> d = 0) by (unfold d'; destruct u; lia).
    assert (HLE : d <= d') by (unfold d'; destruct u; lia).
    assert (HPR : u = false -> scope_pres dv du d' F D).
    { intros E. unfold d'. rewrite E. apply scope_ok_pres; auto. }
    assert (HL : loop_ok o dv du d' F F k D (push_loop u c) u t SSkip body).
    { split; [auto|]. split; [auto|]. split; [auto|]. split; [auto|].
      split. { change d' with (k_dl k). change u with (k_uni k). eapply ctxrel_push_loop; eauto.
               cbn. unfold d'. destruct u; auto. }
      split. { split; [apply le_n|]. cbn. split; [intros E; auto|].
               split; [intros ->; auto|]. split; [discriminate|]. unfold d'. intros ->. lia. }
      split; [apply frozen_le_refl|]. split; [apply scope_le_refl|].
      split; [eapply scope_ok_mono; eauto|]. split; [exact HPR|].
      split; [apply uniform_cf_TU|]. split; [auto|]. split; [exists Dx; exact CB|exists D; reflexivity]. }
    destruct (vbody n o (push_loop u c) u coh t SSkip body (set_bc all_off all_off st)) as [[o1 st1]|] eqn:EB; [|discriminate].
    pose proof (IHb _ _ _ _ _ _ _ _ _ _ _ _ _ _ _ _ EB HL (inv_loop_start _ _ _ _ _ _ _ HI eq_refl Hd')) as LP.
    pose proof (lpost_end _ _ _ K d d' F u D c _ st o1 st1 _ eq_refl eq_refl HK HI LP) as P.
    destruct LP as (O & _). destruct O as [ -> | -> ]; injection HE as <- <-; exact P.
  - (* for *)
    cbn [chk] in HC. cbn [vexec] in HE.
    set (u := uniform_cf t body) in *. set (d' := if u then d else S d) in *.
    destruct (chk dv du None d' F D i) as [D1|] eqn:CI; [|discriminate].
    set (cc := negb u && has_continue body) in *.
    set (k := {| k_loop := true; k_uni := u; k_dl := d'; k_hasc := cc; k_sc := false; k_db := D; k_dc := D1 |}) in *.
    set (F' := if cc then add_frozen (at_depth dv du d' D1) F else F) in *.
    destruct (test_ok D1 t) eqn:ET; [|discriminate].
    destruct (chk dv du (Some k) d' F' D1 body) as [Dx|] eqn:CB; [|discriminate].
    destruct (chk dv du None d' F D1 step) as [Dy|] eqn:CS; [|discriminate]. injection HC as <-.
    assert (Hd' : d' = 0 -> d = 0) by (unfold d'; destruct u; lia).
    assert (HLE : d <= d') by (unfold d'; destruct u; lia).
    assert (HO' : scope_ok dv du d' D) by (eapply scope_ok_mono; eauto).
    assert (HO1 : scope_ok dv du d' D1) by (eapply chk_ok; eauto).
    assert (HFF : frozen_le F F').
    { unfold F'. destruct cc; [apply frozen_le_add|apply frozen_le_refl]. }
    assert (HPR : u = false -> scope_pres dv du d' F D).
    { intros E. unfold d'. rewrite E. apply scope_ok_pres; auto. }
    assert (HX1 : ctxrel dv (Some k) d' (push_loop u c)).
    { change d' with (k_dl k). change u with (k_uni k). eapply ctxrel_push_loop; eauto.
      cbn. unfold d'. destruct u; auto. }
    assert (HL : loop_ok o dv du d' F F' k D1 (push_loop u c) u t step body).
    { split; [auto|]. split; [auto|]. split; [auto|]. split; [auto|].
      split; [exact HX1|].
      split. { split; [apply le_n|]. cbn. split.
               { intros E. split; [eapply scope_pres_mono; [apply le_n|exact HFF|auto]|].
                 intros EC. unfold F'. rewrite EC. apply at_depth_pres; auto. }
               split; [unfold cc; intros ->; auto|]. split; [discriminate|]. unfold d'. intros ->. lia. }
      split; [auto|]. split; [eapply chk_le; eauto|].
      split; [auto|]. split; [exact HPR|].
      split; [apply uniform_cf_TU|]. split; [auto|]. split; eauto. }
    destruct (vexec n o (push_loop u c) i (set_bc all_off all_off st)) as [[oi si]|] eqn:EI; [|discriminate].
    assert (PI : post (o_width o) dv du None d' F D D1 (push_loop u c) (set_bc all_off all_off st) oi si
                (fun l s0 => lexec n (o_funs o) l i s0)).
    { eapply IHe; eauto.
      - eapply ctxrel_none; eauto.
      - exact I.
      - exact I.
      - eapply inv_loop_start; eauto. }
    assert (RES : exists o1 s1, lpost (o_width o) dv du d' F u D D (push_loop u c) (set_bc all_off all_off st) o1 s1
                  (seqR (fun l s0 => lexec n (o_funs o) l i s0) (fun l s0 => ltop n (o_funs o) l t step body s0)) /\
              out = o1 /\ st' = match o1 with VNorm => end_loop u st s1 | _ => s1 end).
    { destruct (post_none_out _ _ _ _ _ _ _ _ _ _ _ _ PI) as [ -> | -> ].
      - destruct (vtop n o (push_loop u c) u coh t step body si) as [[o1 s1]|] eqn:ETP; [|discriminate].
        assert (HIi : inv (o_width o) None d' (push_loop u c) si) by (apply PI; auto).
        pose proof (IHt _ _ _ _ _ _ _ _ _ _ _ _ _ _ _ _ ETP HL HIi) as LP.
        exists o1, s1. split; [eapply lpost_seq; [exact PI|exact LP]|].
        destruct LP as (O & _). destruct O as [ -> | -> ]; injection HE as <- <-; auto.
      - exists VRet, si. split; [eapply lpost_ret; eauto|]. injection HE as <- <-; auto. }
    destruct RES as (o1 & s1 & LP & -> & ->).
    eapply post_R; [|eapply lpost_end; [| |exact HK|exact HI|exact LP]]; try reflexivity.
    intros l s r _ _ _ _. unfold seqR. cbn [lexec]. destruct (lexec n (o_funs o) l i s) as [[[] ?]|]; auto.
  - (* switch *)
    rewrite chk_switch in HC. cbv zeta in HC. cbn [vexec] in HE. cbv zeta in HE.
    set (u := uniform_cf_switch t ss) in *. set (d' := if u then d else S d) in *.
    set (k := {| k_loop := false; k_uni := u; k_dl := d'; k_hasc := false;
                 k_sc := match t with TU _ => true | TV _ => false end; k_db := D; k_dc := D |}) in *.
    destruct (test_ok D t && nodupZ (case_values ss) && (defaults ss <=? 1) && chk_secs dv du (Some k) d' F D ss) eqn:EC; [|discriminate].
    injection HC as <-. apply andb_prop in EC as [EC CS]. apply andb_prop in EC as [EC CD]. apply andb_prop in EC as [ET CN].
    apply Nat.leb_le in CD.
    assert (Hd' : d' = 0 -> d = 0) by (unfold d'; destruct u; lia).
    assert (HLE : d <= d') by (unfold d'; destruct u; lia).
    assert (HO' : scope_ok dv du d' D) by (eapply scope_ok_mono; eauto).
    assert (HPR : u = false -> scope_pres dv du d' F D).
    { intros E. unfold d'. rewrite E. apply scope_ok_pres; auto. }
    assert (HK' : kcond dv du d' F (Some k)).
    { split; [apply le_n|]. cbn. split; [intros E; split; auto|]. split; [auto|]. split; [auto|].
      unfold d'. intros ->. lia. }
    assert (HKS' : kscope (Some k) D) by (split; apply scope_le_refl).
    destruct t as [e|e].
    + assert (HX1 : ctxrel dv (Some k) d' (push_switch u true (full c st) c)).
      { change d' with (k_dl k). change u with (k_uni k).
        apply (ctxrel_push_switch dv K d c k (full c st)); try reflexivity; [exact HX|]. change ((if u then d else S d) = (if u then 0 else 1) + d). case u; reflexivity. }
      destruct (vrun n o (push_switch u true (full c st) c) (scalar_target (ueval (v_U st) e) ss)
                  (set_bc all_off all_off st)) as [[o1 s1]|] eqn:ER; [|discriminate].
      assert (CS' : chk_secs dv du (Some k) d' F D (scalar_target (ueval (v_U st) e) ss) = true).
      { assert (SF : forall p ss0 r, chk_secs dv du (Some k) d' F D ss0 = true -> sections_from p ss0 = Some r ->
                 chk_secs dv du (Some k) d' F D r = true).
        { intros p ss0. induction ss0 as [|lb b r0 IHr0]; intros r; cbn [sections_from]; [discriminate|].
          rewrite chk_secs_cons. intros X. destruct (p lb).
          - intros Y. injection Y as <-. rewrite chk_secs_cons. exact X.
          - apply andb_prop in X as [_ X]. apply IHr0; auto. }
        unfold scalar_target.
        destruct (sections_from _ ss) eqn:E1; [eapply SF; eauto|].
        destruct (sections_from (fun l => match l with Some _ => false | None => true end) ss) eqn:E2; [eapply SF; eauto|auto]. }
      pose proof (IHr dv du (Some k) d' F D _ _ _ _ _ ER CS' HX1 HK' HKS' HO'
                    (inv_switch_start _ _ _ _ _ (push_switch u true (full c st) c) k _ HI eq_refl eq_refl Hd')) as P.
      destruct (lpost_switch _ dv du d' F u k D _ _ _ _ _ eq_refl eq_refl eq_refl eq_refl P) as [O LP].
      assert (FIN : post (o_width o) dv du K d F D D c st out st'
                (fun l s => swout (lrun n (o_funs o) l (scalar_target (ueval (v_U st) e) ss) s))).
      { pose proof (lpost_end _ _ _ K d d' F u D c _ st _ s1 _ eq_refl eq_refl HK HI LP) as PE.
        destruct O as [ -> | [ -> | -> ] ]; injection HE as <- <-; exact PE. }
      eapply post_R; [|exact FIN]. intros l s r Hl Hf Hm Hs. cbn [lexec switch_operand].
      rewrite <- (ueval_agree l D st s e Hs ET), c_switch_eq. unfold swout. destruct (lrun _ _ _ _ _) as [[[] ?]|]; auto.
    + assert (EU : u = false) by reflexivity.
      assert (HX1 : ctxrel dv (Some k) d' (push_switch u false (full c st) c)).
      { change d' with (k_dl k). change u with (k_uni k).
        apply (ctxrel_push_switch dv K d c k (full c st)); auto. }
      destruct (vsecs n o (push_switch u false (full c st) c) (v_mask st) (fun l => xeval st l e) (case_values ss) ss
                  (set_mask all_off (set_bc all_off all_off st))) as [[o1 s1]|] eqn:ER; [|discriminate].
      destruct (lpost_vswitch o n dv du d' F k D _ _ _ _ _ _ IHs ER CS) as [O LP]; auto.
      { apply uniq_ok; auto. }
      { unfold d'. rewrite EU. lia. }
      { intros l Hl Hf Hm. destruct (HI l Hl Hf) as ((B1 & _) & _). apply (B1 Hm). }
      { intros l Hl Hf. cbn in Hf |- *. unfold full, mand. rewrite Hf. apply andb_true_r. }
      assert (FIN : post (o_width o) dv du K d F D D c st out st'
                (fun l s => swout (lrun n (o_funs o) l (scalar_target (xeval st l e) ss) s))).
      { pose proof (lpost_end _ _ _ K d d' F false D c _ st _ s1 _ eq_refl eq_refl HK HI LP) as PE.
        destruct O as [ -> | [ -> | -> ] ]; injection HE as <- <-; exact PE. }
      eapply post_R; [|exact FIN]. intros l s r Hl Hf Hm Hs. cbn [lexec switch_operand].
      rewrite <- (xeval_agree l D st s e Hs ET), c_switch_eq. unfold swout. destruct (lrun _ _ _ _ _) as [[[] ?]|]; auto.
  - (* break *)
    cbn [vexec] in HE. eapply post_R; [|eapply post_break; eauto]. auto.
  - (* continue *)
    cbn [vexec] in HE. eapply post_R; [|eapply post_continue; eauto]. auto.
  - (* return *)
    cbn [chk] in HC. destruct (vexpr_ok D e) eqn:EV; [|discriminate]. injection HC as <-.
    cbn [vexec] in HE. injection HE as HE.
    pose proof (post_return (o_width o) dv du K d F D c st e HX EV HI) as P.
    rewrite HE in P. exact P.
  - (* call *)
    assert (D' = D).
    { cbn [chk] in HC.
      destruct (forallb (uexpr_ok D) us && forallb (vexpr_ok D) vs && assign_ok dv d F D x); congruence. }
    subst D'. eapply post_call; eauto.
Qed.

Theorem simulation o : prog_ok (o_funs o) = true -> forall n, Pall o n.
Proof.
  intros HP n. induction n as [n IH] using lt_wf_ind. destruct n as [|n].
  - unfold Pall, Pexec, Ptop, Pbody, Prun, Psecs. split; [|split; [|split; [|split]]]; intros; discriminate.
  - pose proof (IH n (Nat.lt_succ_diag_r n)) as (A & B & C & D & E).
    split; [apply Pexec_S; auto|]. split; [apply Ptop_S; auto|]. split; [apply Pbody_S; auto|].
    split; [apply Prun_S; auto|apply Psecs_S; auto].
Qed.
