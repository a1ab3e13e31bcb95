(** Consequences of the simulation for whole calls, for coherent variants of a program and
    for the mask after a statement. *)
From Coq Require Import ZArith List Bool Arith Lia.
From Verif Require Import Bits SpmdModel SpmdSpec SpmdRel SpmdProofs SpmdIf SpmdLoop SpmdSwitch SpmdMain.
Import ListNotations.

Lemma prog_ok_nth fs f fd : prog_ok fs = true -> nth_error fs f = Some fd -> chk_fun fd = true.
Proof.
  unfold prog_ok. rewrite forallb_forall. intros H E. apply H. eapply nth_error_In; eauto.
Qed.

Lemma gang_call_sim o n f fm us vs G rv G' tr :
  prog_ok (o_funs o) = true ->
  gang_call n o f fm us vs G = Some (rv, G', tr) ->
  (forall l, l < o_width o -> fm l = false ->
     (forall g, G' g l = G g l) /\ lane_trace l tr = []) /\
  (forall l, l < o_width o -> fm l = true ->
     exists Gl, lane_call n (o_funs o) l f us (map (fun v => v l) vs) (fun g => G g l) =
                  Some (rv l, Gl, lane_trace l tr) /\
                forall g, Gl g = G' g l).
Proof.
  intros HP H. unfold gang_call in H. unfold lane_call.
  destruct (nth_error (o_funs o) f) as [fd|] eqn:EF; [|discriminate].
  destruct (vexec n o _ _ _) as [[out st]|] eqn:EV; [|discriminate].
  destruct (post_fun o n fd _ _ out st (proj1 (simulation o HP n)) (prog_ok_nth _ _ _ HP EF) EV) as (O & Fr & Ac).
  { intros l. repeat split. }
  assert (E3 : rv = v_rv st /\ G' = v_G st /\ tr = v_tr st).
  { destruct O as [ -> | -> ]; injection H as <- <- <-; auto. }
  destruct E3 as (-> & -> & ->). split.
  - intros l Hl Hf. destruct (Fr l Hl) as [F1 F2]; [rewrite entry_mask_eq; auto|]. split; auto.
  - intros l Hl Hf.
    destruct (Ac l Hl) with (s := {| l_V := bind 0 (map (fun v => v l) vs) (fun _ => 0%Z);
                                     l_U := bind 0 us (fun _ => 0%Z); l_G := fun g => G g l; l_rv := 0; l_tr := [] |})
      as (ol & s' & E & OL & (B1 & B2 & B3)).
    + rewrite entry_mask_eq; auto.
    + repeat split.
    + intros x. cbn. rewrite <- (map_id vs) at 1. apply bind_map; auto.
    + intros u. reflexivity.
    + exists (l_G s'). rewrite E, <- B3, <- B2. split; [destruct OL; subst; auto|]. intros g. rewrite B1; auto.
Qed.

Lemma lane_call_mono n m fs l f us vs G r :
  n <= m -> lane_call n fs l f us vs G = Some r -> lane_call m fs l f us vs G = Some r.
Proof.
  intros Hnm. unfold lane_call. destruct (nth_error fs f) as [fd|]; [|discriminate].
  match goal with |- context [lexec n fs l ?b ?x] => destruct (lexec n fs l b x) as [r0|] eqn:E end; [|discriminate].
  rewrite (lexec_mono _ _ _ _ _ _ _ Hnm E). auto.
Qed.

(** ** Coherent variants *)

(** The program with every cif / cfor / cwhile / cdo turned into the plain statement. *)
Fixpoint plain (s : stmt) : stmt :=
  match s with
  | SSeq a b => SSeq (plain a) (plain b)
  | SIf _ t a b => SIf false t (plain a) (plain b)
  | SDo _ b t => SDo false (plain b) t
  | SFor _ i t st b => SFor false (plain i) t (plain st) (plain b)
  | SSwitch t ss => SSwitch t (plain_secs ss)
  | s => s
  end
with plain_secs (ss : secs) : secs :=
  match ss with
  | SNil => SNil
  | SSec l b r => SSec l (plain b) (plain_secs r)
  end.

Definition plain_fun (fd : fundef) : fundef :=
  {| f_nu := f_nu fd; f_nv := f_nv fd; f_body := plain (f_body fd) |}.

Combined Scheme stmt_secs_mind from stmt_mind, secs_mind.

Lemma plain_bc :
  (forall s u, has_varying_bc u (plain s) = has_varying_bc u s) /\
  (forall ss u, has_varying_bc_secs u (plain_secs ss) = has_varying_bc_secs u ss).
Proof.
  apply stmt_secs_mind; intros; cbn [plain plain_secs has_varying_bc has_varying_bc_secs]; auto;
    try (rewrite H, H0; auto).
  destruct t; auto; rewrite H, H0; auto.
Qed.

Lemma plain_ucf t s : uniform_cf t (plain s) = uniform_cf t s.
Proof. destruct t; cbn; auto. rewrite (proj1 plain_bc); auto. Qed.
Lemma plain_ucf_switch t s : uniform_cf_switch t (plain_secs s) = uniform_cf_switch t s.
Proof. destruct t; cbn; auto. rewrite (proj2 plain_bc); auto. Qed.

Lemma plain_depths :
  (forall s d, decl_depths d (plain s) = decl_depths d s /\ udecl_depths d (plain s) = udecl_depths d s) /\
  (forall ss d, decl_depths_secs d (plain_secs ss) = decl_depths_secs d ss /\
                udecl_depths_secs d (plain_secs ss) = udecl_depths_secs d ss).
Proof.
  apply stmt_secs_mind; intros;
    cbn [plain plain_secs decl_depths decl_depths_secs udecl_depths udecl_depths_secs]; auto.
  - destruct (H d) as [-> ->], (H0 d) as [-> ->]; auto.
  - destruct t; [destruct (H d) as [-> ->], (H0 d) as [-> ->]|destruct (H (S d)) as [-> ->], (H0 (S d)) as [-> ->]]; auto.
  - rewrite plain_ucf. apply H.
  - rewrite plain_ucf. cbv zeta.
    match goal with |- context [decl_depths ?x _] =>
      destruct (H x) as [-> ->], (H0 x) as [-> ->], (H1 x) as [-> ->] end; auto.
  - rewrite plain_ucf_switch. apply H.
  - destruct (H d) as [-> ->], (H0 d) as [-> ->]; auto.
Qed.

Lemma plain_dep s : dep_of (plain s) = dep_of s.
Proof. unfold dep_of. rewrite (proj1 (proj1 plain_depths s 0)); auto. Qed.
Lemma plain_udep s : udep_of (plain s) = udep_of s.
Proof. unfold udep_of. rewrite (proj2 (proj1 plain_depths s 0)); auto. Qed.

Lemma plain_continue :
  (forall s, has_continue (plain s) = has_continue s) /\
  (forall ss, has_continue_secs (plain_secs ss) = has_continue_secs ss).
Proof.
  apply stmt_secs_mind; intros; cbn [plain plain_secs has_continue has_continue_secs]; auto;
    rewrite H, H0; auto.
Qed.

Lemma plain_labels ss : case_values (plain_secs ss) = case_values ss /\ defaults (plain_secs ss) = defaults ss.
Proof. induction ss as [|[c|] b r [IH1 IH2]]; cbn; auto; rewrite ?IH1, ?IH2; auto. Qed.

Lemma plain_chk dv du :
  (forall s K d F D, chk dv du K d F D (plain s) = chk dv du K d F D s) /\
  (forall ss K d F D, chk_secs dv du K d F D (plain_secs ss) = chk_secs dv du K d F D ss).
Proof.
  apply stmt_secs_mind; intros; cbn [plain plain_secs]; auto.
  - cbn [chk]. rewrite H. destruct (chk dv du K d F D a); auto.
  - cbn [chk]. destruct (test_ok D t); auto. rewrite H, H0; auto.
  - cbn [chk]. rewrite plain_ucf, H, (proj1 plain_continue); auto.
  - cbn [chk]. rewrite plain_ucf, H, (proj1 plain_continue).
    destruct (chk dv du None _ F D init); auto. destruct (test_ok s t); auto. rewrite H1, H0; auto.
  - rewrite !chk_switch. cbv zeta. rewrite plain_ucf_switch.
    destruct (plain_labels ss) as [-> ->]. rewrite H; auto.
  - rewrite !chk_secs_cons, H, H0; auto.
Qed.

Lemma plain_ok fs : prog_ok (map plain_fun fs) = prog_ok fs.
Proof.
  unfold prog_ok. induction fs as [|fd r IH]; cbn [map forallb]; auto. rewrite IH. f_equal.
  unfold chk_fun. cbn [plain_fun f_nu f_nv f_body]. rewrite plain_dep, plain_udep, (proj1 (plain_chk _ _)); auto.
Qed.

Lemma plain_case v ss : case_section v (plain_secs ss) = option_map plain_secs (case_section v ss).
Proof. induction ss as [|[c|] b r IH]; cbn; auto. destruct (v =? c)%Z; auto. Qed.
Lemma plain_default ss : default_section (plain_secs ss) = plain_secs (default_section ss).
Proof. induction ss as [|[c|] b r IH]; cbn; auto. Qed.
Lemma plain_c_switch v ss : c_switch v (plain_secs ss) = plain_secs (c_switch v ss).
Proof.
  unfold c_switch. rewrite plain_case, plain_default. destruct (case_section v ss); auto.
Qed.

Lemma plain_lexec fs l : forall n,
  (forall s st, lexec n (map plain_fun fs) l (plain s) st = lexec n fs l s st) /\
  (forall t a b st, ltop n (map plain_fun fs) l t (plain a) (plain b) st = ltop n fs l t a b st) /\
  (forall t a b st, lbody n (map plain_fun fs) l t (plain a) (plain b) st = lbody n fs l t a b st) /\
  (forall ss st, lrun n (map plain_fun fs) l (plain_secs ss) st = lrun n fs l ss st).
Proof.
  induction n as [|n (IHe & IHt & IHb & IHr)]; [repeat split; auto|].
  repeat split.
  - intros s st. destruct s; cbn [plain lexec]; auto.
    + rewrite IHe. destruct (lexec n fs l s1 st) as [[[] ?]|]; auto.
    + rewrite <- IHe. destruct (ltest l st t); auto.
    + apply (IHb t SSkip).
    + rewrite IHe. destruct (lexec n fs l s1 st) as [[[] ?]|]; auto.
    + rewrite plain_c_switch, IHr; auto.
    + rewrite nth_error_map. destruct (nth_error fs f) as [fd|]; cbn [option_map]; auto.
      cbn [plain_fun f_body]. rewrite IHe; auto.
  - intros. cbn [ltop]. rewrite IHb; auto.
  - intros. cbn [lbody]. rewrite IHe. destruct (lexec n fs l b st) as [[[] ?]|]; auto;
      rewrite IHe; destruct (lexec n fs l a _) as [[[] ?]|]; auto.
  - intros. cbn [lrun]. destruct ss; cbn [plain_secs]; auto. rewrite IHe.
    destruct (lexec n fs l body st) as [[[] ?]|]; auto.
Qed.

Lemma plain_lane_call n fs l f us vs G :
  lane_call n (map plain_fun fs) l f us vs G = lane_call n fs l f us vs G.
Proof.
  unfold lane_call. rewrite nth_error_map. destruct (nth_error fs f) as [fd|]; cbn [option_map]; auto.
  cbn [plain_fun f_body]. rewrite (proj1 (plain_lexec fs l n)); auto.
Qed.

Lemma coherent_same n1 n2 o1 o2 f fm us vs G r1 G1 t1 r2 G2 t2 :
  prog_ok (o_funs o1) = true ->
  map plain_fun (o_funs o1) = map plain_fun (o_funs o2) ->
  gang_call n1 o1 f fm us vs G = Some (r1, G1, t1) ->
  gang_call n2 o2 f fm us vs G = Some (r2, G2, t2) ->
  forall l, l < o_width o1 -> l < o_width o2 ->
    (fm l = true -> r1 l = r2 l) /\ (forall g, G1 g l = G2 g l) /\ lane_trace l t1 = lane_trace l t2.
Proof.
  intros HP HE H1 H2 l Hl1 Hl2.
  assert (HP2 : prog_ok (o_funs o2) = true) by (rewrite <- plain_ok, <- HE, plain_ok; auto).
  destruct (gang_call_sim _ _ _ _ _ _ _ _ _ _ HP H1) as [F1 A1].
  destruct (gang_call_sim _ _ _ _ _ _ _ _ _ _ HP2 H2) as [F2 A2].
  destruct (fm l) eqn:E.
  - destruct (A1 l Hl1 E) as (Ga & Ea & Qa). destruct (A2 l Hl2 E) as (Gb & Eb & Qb).
    rewrite <- plain_lane_call, HE, plain_lane_call in Ea.
    apply (lane_call_mono n1 (max n1 n2)) in Ea; [|lia]. apply (lane_call_mono n2 (max n1 n2)) in Eb; [|lia].
    rewrite Ea in Eb. injection Eb as X Y Z. subst. split; [auto|]. split; [|auto].
    intros g. rewrite <- Qa, <- Qb; auto.
  - destruct (F1 l Hl1 E) as (Qa & Ta). destruct (F2 l Hl2 E) as (Qb & Tb).
    split; [discriminate|]. split; [|congruence]. intros g. rewrite Qa, Qb; auto.
Qed.

(** ** The mask after a statement *)

(** A point of the program at which the emitted code may be: [s] is at varying depth [d]
    inside the loop or switch [K] of a checked function and the gang's masks are in a state
    [inv] that the code maintains. *)
Definition point (o : opts) dv du K d F D D' (c : cx) (s : stmt) (st : vst) : Prop :=
  chk dv du K d F D s = Some D' /\ ctxrel dv K d c /\ kcond dv du d F K /\ kscope K D /\
  scope_ok dv du d D /\ inv (o_width o) K d c st.

Lemma point_entry o fd fm us vs G :
  chk_fun fd = true ->
  exists D D', point o (dep_of (f_body fd)) (udep_of (f_body fd)) None 0 no_frozen D D'
          (fun_cx fm (dep_of (f_body fd))) (f_body fd) (call_state us vs G) .
Proof.
  unfold chk_fun. intros HC. apply andb_prop in HC as [HC HC3]. apply andb_prop in HC as [HC1 HC2].
  destruct (chk _ _ None 0 _ _ _) as [D'|] eqn:EC; [|discriminate].
  exists {| sc_v := seq 0 (f_nv fd); sc_u := seq 0 (f_nu fd) |}, D'. split; [exact EC|].
  split; [repeat split; auto|]. split; [exact I|]. split; [exact I|].
  split. { split; intros x Hx; cbn in Hx; [eapply forallb_seq_eq in HC1|eapply forallb_seq_eq in HC2]; eauto. }
  intros l Hl Hf. repeat split; auto.
Qed.

Lemma point_post o n dv du K d F D D' c s st out st' :
  prog_ok (o_funs o) = true -> point o dv du K d F D D' c s st ->
  vexec n o c s st = Some (out, st') ->
  post (o_width o) dv du K d F D D' c st out st' (fun l s0 => lexec n (o_funs o) l s s0).
Proof.
  intros HP (P1 & P2 & P3 & P4 & P5 & P6) HE. eapply (proj1 (simulation o HP n)); eauto.
Qed.

Lemma mask_after o n dv du K d F D D' c s st st' :
  prog_ok (o_funs o) = true -> point o dv du K d F D D' c s st ->
  vexec n o c s st = Some (VNorm, st') ->
  forall l, l < o_width o -> c_fm c l = true ->
    (v_mask st l = false -> v_mask st' l = false) /\
    (v_mask st l = true -> exists ol s', lexec n (o_funs o) l s (lane_of l st) = Some (ol, s') /\
       (v_mask st' l = true <-> ol = LNorm) /\
       (v_ret st' l = true <-> ol = LRet) /\
       (v_brk st' l = true <-> ol = LBrk) /\
       (v_cnt st' l = true <-> ol = LCont)).
Proof.
  intros HP HPt HE l Hl Hf. pose proof (point_post _ _ _ _ _ _ _ _ _ _ _ _ _ _ HP HPt HE) as P.
  pose proof P as (_ & _ & Fr & Ac & Iv & _).
  split.
  - intros Hm. destruct (Fr l Hl Hf Hm) as [X _]. exact X.
  - intros Hm. destruct (Ac l Hl Hf Hm (lane_of l st) (agree_lane_of l D st)) as (ol & s' & E & X).
    exists ol, s'. split; auto. destruct (Iv eq_refl l Hl Hf) as ((B1 & _) & _).
    cbn [outrel] in X. destruct X as [(-> & M & _)|[M R0]].
    + destruct (B1 M) as (Z1 & Z2 & Z3). rewrite M, Z1, Z2, Z3. repeat split; auto; discriminate.
    + rewrite M. destruct ol; cbn [rec0] in R0; try contradiction.
      * destruct R0 as (k & _ & _ & -> & -> & -> & _). repeat split; auto; discriminate.
      * destruct R0 as (k & _ & _ & _ & -> & -> & -> & _). repeat split; auto; discriminate.
      * destruct R0 as (-> & -> & -> & _). repeat split; auto; discriminate.
Qed.
