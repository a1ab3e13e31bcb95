(** Proofs about the reference counts of the runtime, part 4: runs, wrappers, IntrusivePtr, threads. *)
From Coq Require Import ZArith List Bool Lia Arith.
From Verif Require Import RefCountModel RefCountSpec RefCountProofs RefCountProofs2 RefCountProofs3.
Import ListNotations.
Open Scope Z_scope.

(** *** Runs *)
Lemma J0 : J [] rt0.
Proof.
  constructor.
  - constructor; intros; cbn in *; try lia; try discriminate; auto.
  - intros k x (o & [] & _).
  - intros p x. split; [intros [H _]; cbn in H; lia|intros H; inversion H].
  - intros x H. cbn in H. lia.
Qed.

Lemma run_J : forall ops st h, J h st ->
  (forall before o after st' h', ops = before ++ o :: after -> run before st h = Ok (st', h') -> correct_use h' o /\ avoids h' o) ->
  exists st' h', run ops st h = Ok (st', h') /\ J h' st'.
Proof.
  induction ops as [|o ops IH]; intros st h Jh H; cbn [run].
  - eauto.
  - destruct (H [] o ops st h eq_refl eq_refl) as [C V]. destruct (step_ok h st o Jh C V) as (st1 & r & E & J1).
    rewrite E. cbn [bind fst snd]. apply IH; auto. intros before o' after st' h' -> R.
    apply (H (o :: before) o' after st' h'); auto. cbn [run]. rewrite E. cbn [bind fst snd]. exact R.
Qed.

Lemma run_ok ops : always correct_use ops -> always avoids ops -> exists st h, run ops rt0 [] = Ok (st, h) /\ J h st.
Proof.
  intros C V. apply (run_J ops rt0 [] J0). intros before o after st' h' E R. split.
  - apply (C before o after st' h'); auto.
  - apply (V before o after st' h'); auto.
Qed.

Lemma keeps_le P D st p x : Inv P D st -> (p < r_next st)%nat -> keeps st x p <= 1.
Proof.
  intros I Hp. destruct (Z.ltb_spec 0 (keeps st x p)) as [Hk|]; [|lia].
  pose proof (held_ge st x p Hp) as Hg. assert (Hx : alive st x = true) by (eapply Inv_held_alive; eauto; lia).
  destruct (alive_lt _ _ Hx) as [Hlt _].
  assert (Dk : o_kind (r_obj st x) = KModule \/ o_kind (r_obj st x) <> KModule) by (destruct (o_kind (r_obj st x)); (left; reflexivity) || (right; discriminate)).
  destruct Dk as [K|K]; [|pose proof (i_once _ _ _ I x Hlt K); lia].
  unfold keeps in *. destruct (o_freed (r_obj st p)); [lia|]. apply occ_in in Hk.
  pose proof (i_typed _ _ _ I p Hp) as T. pose proof (typed_parts _ _ _ T) as (Em & Ef & Eu & El & Eb). destruct T as (A & B & C & E & _).
  unfold owned in Hk. rewrite !in_app_iff in Hk. destruct Hk as [Hk|[Hk|[Hk|Hk]]].
  - destruct (o_module (r_obj st p)) as [m|] eqn:M; cbn in Hk; [|tauto]. destruct Hk as [->|[]]. destruct (A x eq_refl) as (Kp & _).
    rewrite Kp in *. unfold owned. rewrite M, Ef, Eu, El by congruence. cbn [opt_list app]. rewrite occ_cons, Nat.eqb_refl, occ_nil. lia.
  - destruct (B x Hk) as (_&_&?). congruence.
  - destruct (C x Hk) as (_&_&?). congruence.
  - destruct (E x Hk) as (_&_&?). congruence.
Qed.

Lemma zsum_filter f n : (forall i, (i < n)%nat -> f i = 0 \/ f i = 1) -> zsum f n = Z.of_nat (length (filter (fun i => 0 <? f i) (seq 0 n))).
Proof.
  induction n; intros H; auto. rewrite seq_S, filter_app, app_length. cbn [zsum plus filter].
  rewrite IHn by (intros; apply H; lia). destruct (H n ltac:(lia)) as [E|E]; rewrite E; cbn [Z.ltb Z.compare length]; lia.
Qed.

Lemma same_length (a b : list nat) : NoDup a -> NoDup b -> (forall x, In x a <-> In x b) -> length a = length b.
Proof.
  intros Na Nb H. apply Nat.le_antisymm; apply NoDup_incl_length; auto; intros x Hx; apply H; auto.
Qed.

Lemma use_count_ok h st x ps : J h st -> lives h x -> NoDup ps -> (forall p, In p ps <-> lives h p /\ holds h p x) ->
  use_count st x = Ok (app_refs h x + Z.of_nat (length ps)).
Proof.
  intros Jh L ND H. pose proof (j_inv _ _ Jh) as I. pose proof (lives_alive h st Jh x L) as Hx. unfold use_count. rewrite Hx.
  destruct (i_alive _ _ _ I x Hx) as [-> _]. do 2 f_equal. unfold held. rewrite zsum_filter.
  - f_equal. apply same_length; auto; [apply NoDup_filter, seq_NoDup|]. intros p. rewrite H, filter_In, in_seq, Z.ltb_lt.
    rewrite <- (j_holds _ _ Jh). split.
    + intros [Hp Hk]. unfold keeps in Hk. destruct (o_freed (r_obj st p)) eqn:Hf; [lia|]. apply occ_in in Hk.
      split; [|split; [lia|auto]]. apply (alive_lives h st Jh). apply alive_intro; [lia|auto].
    + intros [Hl [Hp Hin]]. split; [lia|]. pose proof (lives_alive h st Jh p Hl) as Ha. destruct (alive_lt _ _ Ha) as [_ Hf].
      unfold keeps. rewrite Hf. apply occ_in; auto.
  - intros p Hp. pose proof (keeps_le _ _ st p x I Hp). pose proof (keeps_nonneg st x p). lia.
Qed.

Lemma no_leak h st : J h st -> (forall x, app_refs h x <= 0) -> (forall x, alive st x = false) /\ (forall lib, r_dl st lib = 0).
Proof.
  intros Jh H. pose proof (j_inv _ _ Jh) as I.
  assert (N : forall x, alive st x = false).
  { intros x. destruct (alive st x) eqn:E; auto. apply (alive_lives h st Jh) in E. induction E as [x Hx|]; auto. specialize (H x). lia. }
  split; auto. intros lib. rewrite (i_dl _ _ _ I lib). unfold opened. rewrite zsum_zero; auto.
  intros p Hp. unfold opens. destruct (o_freed (r_obj st p)) eqn:Hf; auto. specialize (N p). rewrite alive_intro in N by auto. discriminate.
Qed.

(** *** Variables *)
Definition points (e : vars) (x v : nat) : Z := if refers e x v then 1 else 0.
Definition vrefs (e : vars) (x n : nat) : Z := zsum (points e x) n.

Lemma points_nonneg e x v : 0 <= points e x v.
Proof. unfold points. destruct (refers e x v); lia. Qed.

Lemma vrefs_variables e x n : vrefs e x n = Z.of_nat (variables e x n).
Proof.
  unfold vrefs, variables. rewrite zsum_filter.
  - do 2 f_equal. apply filter_ext. intros v. unfold points. destruct (refers e x v); reflexivity.
  - intros v _. unfold points. destruct (refers e x v); auto.
Qed.

Lemma vrefs_more e x n m : (n <= m)%nat -> (forall v, (n <= v)%nat -> e v = None) -> vrefs e x m = vrefs e x n.
Proof.
  intros H Hn. induction H as [|m H IH]; auto. unfold vrefs in *. cbn [zsum]. rewrite IH. unfold points, refers, handle. rewrite Hn by lia. lia.
Qed.

Definition target (y : option (option nat)) (x : nat) : Z := match y with Some (Some z) => if Nat.eqb z x then 1 else 0 | _ => 0 end.

Lemma points_target e x v : points e x v = target (e v) x.
Proof. unfold points, refers, handle, target. destruct (e v) as [[z|]|]; auto. Qed.

Lemma vrefs_upd e v y x n : (v < n)%nat -> vrefs (upd e v y) x n = vrefs e x n - target (e v) x + target y x.
Proof.
  intros H. unfold vrefs. rewrite (zsum_change (points e x) (points (upd e v y) x) n v H).
  - rewrite !points_target. unfold upd. rewrite Nat.eqb_refl. reflexivity.
  - intros i _ N. rewrite !points_target. unfold upd. rewrite (proj2 (Nat.eqb_neq i v)); auto.
Qed.

Lemma vrefs_handle e x n v : (forall u, (n <= u)%nat -> e u = None) -> handle e v = Some x -> 0 < vrefs e x n.
Proof.
  intros H Hv. assert (v < n)%nat. { destruct (Nat.lt_ge_cases v n); auto. unfold handle in Hv. rewrite H in Hv by auto. discriminate. }
  pose proof (zsum_ge (points e x) n v (points_nonneg e x) H0). unfold points in H1 at 1. unfold refers in H1. rewrite Hv, Nat.eqb_refl in H1.
  unfold vrefs. lia.
Qed.

Lemma handle_exists e v x : handle e v = Some x -> e v = Some (Some x).
Proof. unfold handle. destruct (e v) as [[y|]|]; intros H; congruence. Qed.
Lemma handle_null e v : e v <> None -> handle e v = None -> e v = Some None.
Proof. unfold handle. destruct (e v) as [[y|]|]; intros H; congruence. Qed.
Lemma handle_some e v : e v <> None -> e v = Some (handle e v).
Proof. unfold handle. destruct (e v) as [[y|]|]; intros H; congruence. Qed.

Definition W (p : prog) (n : nat) : Prop :=
  J (p_hist p) (p_st p) /\ (forall v, (n <= v)%nat -> p_vars p v = None) /\ (forall x, app_refs (p_hist p) x = vrefs (p_vars p) x n).

Lemma W_more p n m : (n <= m)%nat -> W p n -> W p m.
Proof.
  intros H (A & B & C). split; [auto|]. split; [intros; apply B; lia|]. intros x. rewrite C. symmetry. apply vrefs_more; auto.
Qed.

Lemma step_made o st st' x : step o st = Ok (st', Some x) -> made o <> None.
Proof.
  destruct o; cbn; try discriminate; unfold need, bind; repeat match goal with |- context [if ?b then _ else _] => destruct b | |- context [match ?b with _ => _ end] => destruct b end; discriminate.
Qed.

Lemma keeper_used o p : keeper o = Some p -> exists k, In (k, p) (uses o).
Proof. destruct o; cbn; intros H; try discriminate; injection H as ->; eexists; left; reflexivity. Qed.

Lemma owner_quiet o : owner o = true -> quiet o = true.
Proof. destruct o; auto. Qed.

(** a call with handles of variables *)
Lemma W_call p n o : W p n -> owner o = true -> (match o with StaticLink _ _ => False | _ => True end) ->
  (forall k x, In (k, x) (uses o) -> (exists v, handle (p_vars p) v = Some x) /\ is_kind (p_hist p) k x) ->
  exists st r, step o (p_st p) = Ok (st, r) /\ J ((o, r) :: p_hist p) st.
Proof.
  intros (Jp & B & C) Ho Hs U. apply step_ok; auto.
  - split; [|destruct o; auto; discriminate]. intros k x Hin. destruct (U k x Hin) as [[v Hv] K]. split; auto.
    apply lives_app. rewrite C. eapply vrefs_handle; eauto.
  - destruct o; cbn; auto; discriminate.
Qed.

Lemma W_set p n v y h st : W p n -> (v < n)%nat -> J h st ->
  (forall x, app_refs h x = app_refs (p_hist p) x - target (p_vars p v) x + target y x) ->
  W {| p_st := st; p_hist := h; p_vars := upd (p_vars p) v y |} n.
Proof.
  intros (Jp & B & C) Hv Jh H. split; [exact Jh|]. cbn [p_st p_vars p_hist]. split.
  - intros u Hu. unfold upd. rewrite (proj2 (Nat.eqb_neq u v)) by lia. auto.
  - intros x. rewrite H, C, vrefs_upd by auto. reflexivity.
Qed.

Lemma app_refs_retain y r h x : app_refs ((Retain y, r) :: h) x = (if Nat.eqb y x then 1 else 0) + app_refs h x.
Proof. reflexivity. Qed.

Lemma upd_none (e : vars) v y n : (v < n)%nat -> (forall u, (n <= u)%nat -> e u = None) -> forall u, (n <= u)%nat -> upd e v y u = None.
Proof. intros H B u Hu. unfold upd. rewrite (proj2 (Nat.eqb_neq u v)) by lia. auto. Qed.

Lemma vstep_ok p n s : W p n -> correct_cpp p s -> careful_cpp p s -> exists p' n', vstep s p = Ok p' /\ W p' n'.
Proof.
  intros Wp (Mk & Rd & Cl) Ca.
  set (n1 := match vmakes s with Some v => Nat.max n (S v) | None => n end).
  assert (W1 : W p n1). { apply (W_more p n); auto. subst n1. destruct (vmakes s); lia. }
  assert (V1 : forall v, vmakes s = Some v -> (v < n1)%nat /\ p_vars p v = None).
  { intros v Hv. split; [subst n1; rewrite Hv; lia|auto]. }
  assert (V2 : forall v, p_vars p v <> None -> (v < n1)%nat).
  { intros v Hv. destruct (Nat.lt_ge_cases v n1); auto. destruct W1 as (_ & B & _). destruct Hv. auto. }
  pose proof W1 as (Jp & B & C). destruct s; cbn [vstep vmakes vreads vop_of] in *; unfold call.
  - (* VNew *)
    destruct (Cl o eq_refl) as (Ho & U & Hm & Hk). destruct (V1 v eq_refl) as [Hv Ev].
    destruct (W_call p n1 o W1 Ho) as (st & r & E & J1); auto.
    rewrite E. unfold set_var; cbn [bind fst snd p_st p_hist p_vars]. eexists _, n1. split; [reflexivity|]. apply (W_set p n1); auto.
    intros x. cbn [fst snd p_st p_hist p_vars]. rewrite Ev. cbn [target]. destruct r as [y|].
    + rewrite app_refs_some, Hk by (apply owner_quiet; auto). lia.
    + rewrite app_refs_none by (apply owner_quiet; auto). lia.
  - (* VShare *)
    destruct (Cl o eq_refl) as (Ho & U & Hk). destruct (V1 v eq_refl) as [Hv Ev].
    destruct (W_call p n1 o W1 Ho) as (st & r & E & J1); auto.
    rewrite E. cbn [bind fst snd]. destruct r as [y|].
    + cbn [retain call p_st p_hist p_vars]. destruct (keeper o) as [q|] eqn:Kq; [|congruence].
      destruct (keeper_used o q Kq) as [k Hin]. destruct (U k q Hin) as [[w Hw] _].
      assert (L : lives ((o, Some y) :: p_hist p) y).
      { apply (lives_held _ q); [|apply holds_new; auto]. apply lives_app. rewrite app_refs_some, Kq by (apply owner_quiet; auto).
        pose proof (vrefs_handle _ _ _ _ B Hw) as G. rewrite <- C in G. destruct (Nat.eqb y q); lia. }
      destruct (step_ok _ st (Retain y) J1) as (st2 & r2 & E2 & J2).
      { split; [intros k' x' []|exact L]. } { exact Logic.I. }
      unfold call. cbn [p_st p_hist p_vars]. rewrite E2. unfold set_var; cbn [bind fst snd p_st p_hist p_vars]. eexists _, n1. split; [reflexivity|].
      apply (W_set p n1); auto. intros x. cbn [fst snd p_st p_hist p_vars]. rewrite Ev. cbn [target].
      pose proof (app_refs_some o y (p_hist p) x (owner_quiet o Ho)) as A. rewrite Kq in A. rewrite app_refs_retain, A. destruct (Nat.eqb y x); lia.
    + unfold set_var; cbn [p_st p_hist p_vars]. eexists _, n1. split; [reflexivity|]. apply (W_set p n1); auto.
      intros x. cbn [fst snd p_st p_hist p_vars]. rewrite Ev. cbn [target]. rewrite app_refs_none by (apply owner_quiet; auto). lia.
  - (* VCall *)
    destruct (Cl o eq_refl) as (Ho & U & Hm).
    destruct (W_call p n1 o W1 Ho) as (st & r & E & J1); auto.
    rewrite E. cbn [bind fst snd]. eexists _, n1. split; [reflexivity|].
    destruct r as [y|]; [apply step_made in E; congruence|]. split; [exact J1|]. split; [exact B|].
    intros x. cbn [p_hist p_vars]. rewrite app_refs_none by (apply owner_quiet; auto). apply C.
  - (* VCopy *)
    destruct (V1 v eq_refl) as [Hv Ev]. destruct (handle (p_vars p) w) as [y|] eqn:Hw; [|congruence]. cbn [retain].
    assert (L : lives (p_hist p) y). { apply lives_app. rewrite C. eapply vrefs_handle; eauto. }
    destruct (step_ok _ (p_st p) (Retain y) Jp) as (st2 & r2 & E2 & J2).
    { split; [intros k' x' []|exact L]. } { exact Logic.I. }
    unfold call. rewrite E2. unfold set_var; cbn [bind fst snd p_st p_hist p_vars]. rewrite Hw. eexists _, n1. split; [reflexivity|].
    apply (W_set p n1); auto. intros x. cbn [fst snd p_st p_hist p_vars]. rewrite Ev. cbn [target app_refs event_refs]. lia.
  - (* VMove *)
    destruct (V1 v eq_refl) as [Hv Ev]. pose proof (Rd w (or_introl eq_refl)) as Ew. pose proof (V2 w Ew) as Hw.
    assert (Nvw : w <> v) by congruence. eexists _, n1. split; [reflexivity|]. unfold set_var; cbn [p_st p_hist p_vars].
    split; [exact Jp|]. cbn [p_st p_vars p_hist]. split.
    + apply upd_none; auto. apply upd_none; auto.
    + intros x. cbn [fst snd p_st p_hist p_vars]. rewrite !vrefs_upd by auto. rewrite Ev, C. unfold upd. rewrite (proj2 (Nat.eqb_neq w v)) by auto.
      rewrite (handle_some _ w Ew) at 1. cbn [target]. lia.
  - (* VAssign *)
    destruct Ca as [Hw Hv]. pose proof (Rd v (or_introl eq_refl)) as Ev. pose proof (Rd w (or_intror (or_introl eq_refl))) as Ew.
    pose proof (V2 v Ev) as Lv. destruct (handle (p_vars p) w) as [y|] eqn:Hy; [|congruence]. cbn [retain].
    assert (L : lives (p_hist p) y). { apply lives_app. rewrite C. eapply vrefs_handle; eauto. }
    destruct (step_ok _ (p_st p) (Retain y) Jp) as (st2 & r2 & E2 & J2).
    { split; [intros k' x' []|exact L]. } { exact Logic.I. }
    unfold call. unfold set_var; cbn [p_st p_hist p_vars]. rewrite E2. cbn [bind fst snd p_st p_hist p_vars]. eexists _, n1. split; [reflexivity|].
    apply (W_set p n1); auto. intros x. cbn [fst snd p_st p_hist p_vars]. rewrite (handle_null _ v Ev Hv). cbn [target app_refs event_refs]. lia.
  - (* VMoveAssign *)
    pose proof (Rd v (or_introl eq_refl)) as Ev. pose proof (Rd w (or_intror (or_introl eq_refl))) as Ew.
    pose proof (V2 v Ev) as Lv. pose proof (V2 w Ew) as Lw. eexists _, n1. split; [reflexivity|]. unfold set_var; cbn [p_st p_hist p_vars].
    split; [exact Jp|]. cbn [p_st p_vars p_hist]. split.
    + apply upd_none; auto. apply upd_none; auto.
    + intros x. cbn [fst snd p_st p_hist p_vars]. rewrite !vrefs_upd by auto. rewrite (handle_null _ v Ev Ca), C. cbn [target]. unfold upd.
      destruct (Nat.eqb_spec w v) as [E|N].
      * subst w. rewrite Ca. cbn. lia.
      * rewrite (handle_some _ w Ew) at 1. cbn [target]. lia.
  - (* VEnd *)
    pose proof (Rd v (or_introl eq_refl)) as Ev. pose proof (V2 v Ev) as Lv.
    destruct (handle (p_vars p) v) as [y|] eqn:Hy; cbn [drop].
    + assert (L : 0 < app_refs (p_hist p) y). { rewrite C. eapply vrefs_handle; eauto. }
      destruct (step_ok _ (p_st p) (Release y) Jp) as (st2 & r2 & E2 & J2).
      { split; [intros k' x' []|exact L]. } { apply Ca; auto. }
      unfold call. rewrite E2. unfold set_var; cbn [bind fst snd p_st p_hist p_vars]. eexists _, n1. split; [reflexivity|].
      apply (W_set p n1); auto. intros x. cbn [fst snd p_st p_hist p_vars]. rewrite (handle_exists _ v y Hy). cbn [target app_refs event_refs]. destruct (Nat.eqb y x); lia.
    + cbn [bind set_var]. eexists _, n1. split; [reflexivity|]. apply (W_set p n1); auto. intros x. cbn [fst snd p_st p_hist p_vars].
      rewrite (handle_null _ v Ev Hy). cbn [target]. lia.
Qed.

Lemma vrun_W : forall l p n, W p n ->
  (forall before s after p', l = before ++ s :: after -> vrun before p = Ok p' -> correct_cpp p' s /\ careful_cpp p' s) ->
  exists p' n', vrun l p = Ok p' /\ W p' n'.
Proof.
  induction l as [|s l IH]; intros p n Wp H; cbn [vrun].
  - eauto.
  - destruct (H [] s l p eq_refl eq_refl) as [C V]. destruct (vstep_ok p n s Wp C V) as (p1 & n1 & E & W1).
    rewrite E. cbn [bind]. apply (IH p1 n1); auto. intros before s' after p' -> R.
    apply (H (s :: before) s' after p'); auto. cbn [vrun]. rewrite E. exact R.
Qed.

Lemma vrun_ok l : valways correct_cpp l -> valways careful_cpp l -> exists p n, vrun l prog0 = Ok p /\ W p n.
Proof.
  intros C V. apply (vrun_W l prog0 0).
  - split; [exact J0|]. split; [reflexivity|]. intros x. reflexivity.
  - intros before s after p' E R. split; [eapply C|eapply V]; eauto.
Qed.

Lemma variables_none e : (forall v, e v = None) -> forall x n, vrefs e x n = 0.
Proof. intros H x n. apply zsum_zero. intros v _. rewrite points_target, H. reflexivity. Qed.

(** *** IntrusivePtr *)
Definition X (p : iprog) (n : nat) : Prop :=
  Inv (fun x => vrefs (i_vars p) x n) (fun _ => 0) (i_st p) /\ (forall x, (x < r_next (i_st p))%nat -> o_kind (r_obj (i_st p) x) = KView) /\
  (forall v, (n <= v)%nat -> i_vars p v = None).

Lemma X_more p n m : (n <= m)%nat -> X p n -> X p m.
Proof.
  intros H (A & B & C). split; [|split; [auto|intros; apply C; lia]]. eapply Inv_P; [|exact A]. intros x. symmetry. apply vrefs_more; auto.
Qed.

Lemma rel_view P st x : Inv P (fun _ => 0) st -> (forall x, (x < r_next st)%nat -> o_kind (r_obj st x) = KView) -> 0 < P x ->
  exists st', release x st = Ok st' /\ Inv (upd P x (P x - 1)) (fun _ => 0) st' /\ same st st'.
Proof.
  intros I K HP. apply ref_dec_inv; auto. destruct (alive_lt _ _ (Inv_Ppos_alive _ _ _ _ I HP)) as [Hlt _]. rewrite (K x Hlt).
  unfold nesting. cbn. split; [lia|discriminate].
Qed.

Lemma same_views a b : same a b -> (forall x, (x < r_next a)%nat -> o_kind (r_obj a x) = KView) ->
  (forall x, (x < r_next b)%nat -> o_kind (r_obj b x) = KView).
Proof. intros [N S] H x Hx. destruct (S x) as (<- & _). apply H. lia. Qed.

Lemma maybe_inc P st y : Inv P (fun _ => 0) st -> (forall x, y = Some x -> 0 < P x) ->
  exists st', maybe ref_inc y st = Ok st' /\ Inv (fun x => P x + target (Some y) x) (fun _ => 0) st' /\ same st st'.
Proof.
  intros I H. destruct y as [y|]; cbn [maybe target].
  - destruct (ref_inc_inv _ _ st y I) as (st' & E & I' & S'). { eapply Inv_Ppos_alive; eauto. }
    exists st'. split; auto. split; auto. eapply Inv_P; [|exact I']. intros x. unfold upd. rewrite (Nat.eqb_sym y x).
    destruct (Nat.eqb_spec x y) as [E1|]; [subst x|]; lia.
  - exists st. split; auto. split; [|apply same_refl]. eapply Inv_P; [|exact I]. intros; cbn; lia.
Qed.

Lemma maybe_dec P st y : Inv P (fun _ => 0) st -> (forall x, (x < r_next st)%nat -> o_kind (r_obj st x) = KView) -> (forall x, y = Some x -> 0 < P x) ->
  exists st', maybe release y st = Ok st' /\ Inv (fun x => P x - target (Some y) x) (fun _ => 0) st' /\ same st st'.
Proof.
  intros I K H. destruct y as [y|]; cbn [maybe target].
  - destruct (rel_view _ st y I K) as (st' & E & I' & S'); auto.
    exists st'. split; auto. split; auto. eapply Inv_P; [|exact I']. intros x. unfold upd. rewrite (Nat.eqb_sym y x).
    destruct (Nat.eqb_spec x y) as [E1|]; [subst x|]; lia.
  - exists st. split; auto. split; [|apply same_refl]. eapply Inv_P; [|exact I]. intros; cbn; lia.
Qed.

Lemma istep_ok p n s : X p n -> correct_ptr p s -> careful_ptr p s -> exists p' n', istep s p = Ok p' /\ X p' n'.
Proof.
  intros Xp (Mk & Rd) Ca.
  set (n1 := match imakes s with Some v => Nat.max n (S v) | None => n end).
  assert (X1 : X p n1). { apply (X_more p n); auto. subst n1. destruct (imakes s); lia. }
  assert (V1 : forall v, imakes s = Some v -> (v < n1)%nat /\ i_vars p v = None).
  { intros v Hv. split; [subst n1; rewrite Hv; lia|auto]. }
  assert (V2 : forall v, i_vars p v <> None -> (v < n1)%nat).
  { intros v Hv. destruct (Nat.lt_ge_cases v n1); auto. destruct X1 as (_ & _ & B). destruct Hv. auto. }
  pose proof X1 as (I & K & B).
  assert (HP : forall v x, handle (i_vars p) v = Some x -> 0 < vrefs (i_vars p) x n1) by (intros; eapply vrefs_handle; eauto).
  destruct s; cbn [istep imakes ireads] in *.
  - destruct (V1 v eq_refl) as [Hv Ev]. eexists _, n1. split; [reflexivity|]. split; [|split; [auto|apply upd_none; auto]].
    unfold iset; cbn [i_st i_vars]. eapply Inv_P; [|exact I]. intros x. rewrite vrefs_upd, Ev by auto. cbn. lia.
  - destruct (V1 v eq_refl) as [Hv Ev]. set (N := r_next (i_st p)). change (snd (create (blank KView) (i_st p))) with N.
    assert (I1 : Inv (upd (fun x => vrefs (i_vars p) x n1) N 1) (fun _ => 0) (fst (create (blank KView) (i_st p)))).
    { apply create_inv; [repeat split|reflexivity|reflexivity|cbn; congruence|lia|]. apply (Inv_D _ (fun _ => 0)); auto. }
    assert (V0 : vrefs (i_vars p) N n1 = 0) by (apply (i_dead _ _ _ I), next_dead).
    destruct (ref_inc_inv _ _ _ N I1) as (st2 & E2 & I2 & S2).
    { rewrite alive_create by reflexivity. fold N. rewrite Nat.eqb_refl. reflexivity. }
    rewrite E2. cbn [bind].
    assert (K2 : forall x, (x < r_next st2)%nat -> o_kind (r_obj st2 x) = KView).
    { apply (same_views _ _ S2). intros x Hx. rewrite create_obj. fold N. cbn in Hx. destruct (Nat.eqb_spec x N); [reflexivity|]. apply K. subst N. lia. }
    destruct (rel_view _ st2 N I2 K2) as (st3 & E3 & I3 & S3).
    { unfold upd. rewrite !Nat.eqb_refl. lia. }
    rewrite E3. cbn [bind]. eexists _, n1. split; [reflexivity|]. unfold iset. split; [|split; [|apply upd_none; auto]]; cbn [i_st i_vars].
    + eapply Inv_P; [|exact I3]. intros x. rewrite vrefs_upd, Ev by auto. cbn [target]. unfold upd. rewrite !Nat.eqb_refl, (Nat.eqb_sym N x).
      destruct (Nat.eqb_spec x N) as [E|]; [subst x|]; lia.
    + apply (same_views _ _ S3); auto.
  - destruct (V1 v eq_refl) as [Hv Ev]. destruct (maybe_inc _ (i_st p) (handle (i_vars p) w) I) as (st2 & E2 & I2 & S2); [eauto|].
    rewrite E2. cbn [bind]. eexists _, n1. split; [reflexivity|]. unfold iset. split; [|split; [|apply upd_none; auto]]; cbn [i_st i_vars].
    + eapply Inv_P; [|exact I2]. intros x. rewrite vrefs_upd, Ev by auto. cbn [target]. lia.
    + apply (same_views _ _ S2); auto.
  - destruct (V1 v eq_refl) as [Hv Ev]. pose proof (Rd w (or_introl eq_refl)) as Ew. pose proof (V2 w Ew) as Hw.
    assert (Nvw : w <> v) by congruence. eexists _, n1. split; [reflexivity|]. unfold iset; cbn [i_st i_vars].
    split; [|split; [auto|]]; cbn [i_st i_vars].
    + eapply Inv_P; [|exact I]. intros x. rewrite !vrefs_upd by auto. rewrite Ev. unfold upd. rewrite (proj2 (Nat.eqb_neq w v)) by auto.
      rewrite (handle_some _ w Ew) at 1. cbn [target]. lia.
    + apply upd_none; auto. apply upd_none; auto.
  - pose proof (Rd v (or_introl eq_refl)) as Ev. pose proof (V2 v Ev) as Lv.
    destruct (maybe_inc _ (i_st p) (handle (i_vars p) w) I) as (st2 & E2 & I2 & S2); [eauto|]. rewrite E2. cbn [bind].
    destruct (maybe_dec _ st2 (handle (i_vars p) v) I2) as (st3 & E3 & I3 & S3).
    { apply (same_views _ _ S2); auto. }
    { intros x Hx. specialize (HP v x Hx). assert (0 <= target (Some (handle (i_vars p) w)) x); [|lia].
      unfold target. destruct (handle (i_vars p) w); [destruct (Nat.eqb _ _)|]; lia. }
    rewrite E3. cbn [bind]. eexists _, n1. split; [reflexivity|]. unfold iset. split; [|split; [|apply upd_none; auto]]; cbn [i_st i_vars].
    + eapply Inv_P; [|exact I3]. intros x. cbn beta. rewrite vrefs_upd by auto. rewrite (handle_some _ v Ev). cbn [target]. lia.
    + apply (same_views _ _ S3). apply (same_views _ _ S2); auto.
  - pose proof (Rd v (or_introl eq_refl)) as Ev. pose proof (Rd w (or_intror (or_introl eq_refl))) as Ew.
    pose proof (V2 v Ev) as Lv. pose proof (V2 w Ew) as Lw. eexists _, n1. split; [reflexivity|]. unfold iset; cbn [i_st i_vars].
    split; [|split; [auto|]]; cbn [i_st i_vars].
    + eapply Inv_P; [|exact I]. intros x. rewrite !vrefs_upd by auto. rewrite (handle_null _ v Ev Ca). cbn [target]. unfold upd.
      destruct (Nat.eqb_spec w v) as [E|N].
      * subst w. rewrite Ca. cbn. lia.
      * rewrite (handle_some _ w Ew) at 1. cbn [target]. lia.
    + apply upd_none; auto. apply upd_none; auto.
  - pose proof (Rd v (or_introl eq_refl)) as Ev. pose proof (V2 v Ev) as Lv.
    destruct (maybe_dec _ (i_st p) (handle (i_vars p) v) I K) as (st3 & E3 & I3 & S3); [eauto|].
    rewrite E3. cbn [bind]. eexists _, n1. split; [reflexivity|]. unfold iset. split; [|split; [|apply upd_none; auto]]; cbn [i_st i_vars].
    + eapply Inv_P; [|exact I3]. intros x. cbn beta. rewrite vrefs_upd by auto. rewrite (handle_some _ v Ev). cbn [target]. lia.
    + apply (same_views _ _ S3); auto.
  - pose proof (Rd v (or_introl eq_refl)) as Ev. pose proof (V2 v Ev) as Lv.
    destruct (maybe_dec _ (i_st p) (handle (i_vars p) v) I K) as (st3 & E3 & I3 & S3); [eauto|].
    rewrite E3. cbn [bind]. eexists _, n1. split; [reflexivity|]. unfold iset. split; [|split; [|apply upd_none; auto]]; cbn [i_st i_vars].
    + eapply Inv_P; [|exact I3]. intros x. cbn beta. rewrite vrefs_upd by auto. rewrite (handle_some _ v Ev). cbn [target]. lia.
    + apply (same_views _ _ S3); auto.
Qed.

Lemma irun_X : forall l p n, X p n ->
  (forall before s after p', l = before ++ s :: after -> irun before p = Ok p' -> correct_ptr p' s /\ careful_ptr p' s) ->
  exists p' n', irun l p = Ok p' /\ X p' n'.
Proof.
  induction l as [|s l IH]; intros p n Wp H; cbn [irun].
  - eauto.
  - destruct (H [] s l p eq_refl eq_refl) as [C V]. destruct (istep_ok p n s Wp C V) as (p1 & n1 & E & W1).
    rewrite E. cbn [bind]. apply (IH p1 n1); auto. intros before s' after p' -> R.
    apply (H (s :: before) s' after p'); auto. cbn [irun]. rewrite E. exact R.
Qed.

Lemma irun_ok l : ialways correct_ptr l -> ialways careful_ptr l -> exists p n, irun l iprog0 = Ok p /\ X p n.
Proof.
  intros C V. apply (irun_X l iprog0 0).
  - split; [exact (j_inv _ _ J0)|]. split; [cbn; intros; lia|reflexivity].
  - intros before s after p' E R. split; [eapply C|eapply V]; eauto.
Qed.

Lemma held_views p n : X p n -> forall x, held (i_st p) x = 0.
Proof.
  intros (I & K & _) x. apply zsum_zero. intros q Hq. unfold keeps. destruct (o_freed _); auto.
  pose proof (i_typed _ _ _ I q Hq) as T. rewrite (K q Hq) in T. destruct (typed_parts _ _ _ T) as (Em & Ef & Eu & El & Eb).
  unfold owned. rewrite Em, Ef, Eu, El by congruence. reflexivity.
Qed.

(** *** Threads *)
Definition del (s : shared) (t : nat) : Z := match t_pc (s_threads s t) with Deleting => 1 | Idle => 0 end.
Definition tref (s : shared) (t : nat) : Z := Z.of_nat (t_refs (s_threads s t)).
Definition T (s : shared) (n : nat) : Prop :=
  (forall t, (n <= t)%nat -> t_refs (s_threads s t) = 0%nat /\ t_pc (s_threads s t) = Idle) /\
  s_count s = zsum (tref s) n /\
  Z.of_nat (s_deletes s) + zsum (del s) n = (if s_count s =? 0 then 1 else 0) /\ s_after s = false.

Lemma zsum_ext0 f n m : (n <= m)%nat -> (forall i, (n <= i)%nat -> f i = 0) -> zsum f m = zsum f n.
Proof. intros H Hf. induction H; auto. cbn. rewrite IHle, Hf; lia. Qed.

Lemma T_more s n m : (n <= m)%nat -> T s n -> T s m.
Proof.
  intros H (A & B & C & D). split; [intros; apply A; lia|]. split; [|split; [|auto]].
  - rewrite B. symmetry. apply zsum_ext0; auto. intros i Hi. unfold tref. destruct (A i Hi) as [-> _]. reflexivity.
  - rewrite <- C. f_equal. apply zsum_ext0; auto. intros i Hi. unfold del. destruct (A i Hi) as [_ ->]. reflexivity.
Qed.

Lemma tref_nonneg s t : 0 <= tref s t. Proof. unfold tref. lia. Qed.
Lemma del_nonneg s t : 0 <= del s t. Proof. unfold del. destruct (t_pc _); lia. Qed.

Lemma zsum_set (g : thread -> Z) s t x c d a n : (t < n)%nat ->
  zsum (fun i => g (s_threads (set_thread s t x c d a) i)) n = zsum (fun i => g (s_threads s i)) n - g (s_threads s t) + g x.
Proof.
  intros H. rewrite (zsum_change (fun i => g (s_threads s i)) (fun i => g (s_threads (set_thread s t x c d a) i)) n t H).
  - cbn. unfold upd. rewrite Nat.eqb_refl. reflexivity.
  - intros i _ N. cbn. unfold upd. rewrite (proj2 (Nat.eqb_neq i t)); auto.
Qed.

Definition gref (x : thread) : Z := Z.of_nat (t_refs x).
Definition gdel (x : thread) : Z := match t_pc x with Deleting => 1 | Idle => 0 end.

Lemma T_refs s n t : T s n -> (0 < t_refs (s_threads s t))%nat -> (t < n)%nat /\ 0 < s_count s /\ s_deletes s = 0%nat /\ zsum (del s) n = 0 /\ touch s = false.
Proof.
  intros (A & B & C & D) Ht. assert (Hn : (t < n)%nat). { destruct (Nat.lt_ge_cases t n); auto. destruct (A t H) as [E _]. lia. }
  pose proof (zsum_ge (tref s) n t (tref_nonneg s) Hn) as G. unfold tref in G at 1.
  assert (Hc : 0 < s_count s) by lia. rewrite (proj2 (Z.eqb_neq (s_count s) 0)) in C by lia.
  pose proof (zsum_nonneg (del s) n (del_nonneg s)). assert (s_deletes s = 0%nat) by lia. repeat split; auto; try lia.
  unfold touch. rewrite D, H0. reflexivity.
Qed.

Lemma tstep_T s s' n : T s n -> tstep s s' -> exists m, T s' m.
Proof.
  intros Ts St. destruct St as [s t Hpc Ht|s t u Ntu Hpc Ht|s t Hpc Ht|s t Hpc].
  - destruct (T_refs s n t Ts Ht) as (Hn & Hc & Hd & Hz & Hto). destruct Ts as (A & B & C & D). exists n. rewrite Hto.
    split; [|split; [|split; [|reflexivity]]].
    + intros i Hi. cbn. unfold upd. rewrite (proj2 (Nat.eqb_neq i t)) by lia. auto.
    + cbn [s_count set_thread]. rewrite B. change (tref (set_thread s t _ _ _ _)) with (fun i => gref (s_threads (set_thread s t {| t_refs := S (t_refs (s_threads s t)); t_pc := Idle |} (zsum (tref s) n + 1) (s_deletes s) false) i)).
      rewrite zsum_set by auto. change (fun i => gref (s_threads s i)) with (tref s). unfold gref. cbn [t_refs]. lia.
    + cbn [s_count s_deletes set_thread]. change (del (set_thread s t ?a ?b ?c ?d)) with (fun i => gdel (s_threads (set_thread s t a b c d) i)).
      rewrite zsum_set by auto. change (fun i => gdel (s_threads s i)) with (del s). rewrite Hz, Hd. unfold gdel. cbn [t_pc]. rewrite Hpc.
      rewrite (proj2 (Z.eqb_neq (s_count s + 1) 0)) by lia. reflexivity.
  - destruct (T_refs s n t Ts Ht) as (Hn & Hc & Hd & Hz & Hto). exists (Nat.max n (S u)).
    apply (T_more s n (Nat.max n (S u))) in Ts; [|lia]. set (m := Nat.max n (S u)) in *. assert (Hm : (t < m)%nat) by lia. assert (Hu : (u < m)%nat) by lia.
    destruct Ts as (A & B & C & D). cbn zeta. set (s1 := set_thread s t _ _ _ _).
    assert (E1 : s_threads s1 u = s_threads s u). { subst s1. cbn. unfold upd. rewrite (proj2 (Nat.eqb_neq u t)) by auto. reflexivity. }
    rewrite E1. split; [|split; [|split; [|exact D]]].
    + intros i Hi. cbn. unfold upd. rewrite !(proj2 (Nat.eqb_neq i _)) by lia. auto.
    + cbn [s_count set_thread]. change (tref (set_thread s1 u ?a ?b ?c ?d)) with (fun i => gref (s_threads (set_thread s1 u a b c d) i)).
      rewrite zsum_set by auto. rewrite E1. subst s1. rewrite zsum_set by auto. change (fun i => gref (s_threads s i)) with (tref s).
      unfold gref. cbn [t_refs]. lia.
    + cbn [s_count s_deletes set_thread]. change (del (set_thread s1 u ?a ?b ?c ?d)) with (fun i => gdel (s_threads (set_thread s1 u a b c d) i)).
      rewrite zsum_set by auto. rewrite E1. subst s1. rewrite zsum_set by auto. change (fun i => gdel (s_threads s i)) with (del s).
      unfold gdel. cbn [t_pc]. rewrite Hpc. lia.
  - destruct (T_refs s n t Ts Ht) as (Hn & Hc & Hd & Hz & Hto). destruct Ts as (A & B & C & D). exists n. rewrite Hto.
    split; [|split; [|split; [|reflexivity]]].
    + intros i Hi. cbn. unfold upd. rewrite (proj2 (Nat.eqb_neq i t)) by lia. auto.
    + cbn [s_count set_thread]. change (tref (set_thread s t ?a ?b ?c ?d)) with (fun i => gref (s_threads (set_thread s t a b c d) i)).
      rewrite zsum_set by auto. change (fun i => gref (s_threads s i)) with (tref s). unfold gref. cbn [t_refs]. lia.
    + cbn [s_count s_deletes set_thread]. change (del (set_thread s t ?a ?b ?c ?d)) with (fun i => gdel (s_threads (set_thread s t a b c d) i)).
      rewrite zsum_set by auto. change (fun i => gdel (s_threads s i)) with (del s). rewrite Hz, Hd. unfold gdel. cbn [t_pc]. rewrite Hpc.
      destruct (s_count s - 1 =? 0); reflexivity.
  - destruct Ts as (A & B & C & D). assert (Hn : (t < n)%nat). { destruct (Nat.lt_ge_cases t n); auto. destruct (A t H). congruence. }
    pose proof (zsum_ge (del s) n t (del_nonneg s) Hn) as G. unfold del in G at 1. rewrite Hpc in G.
    destruct (s_count s =? 0) eqn:E0; [|lia]. assert (Hd : s_deletes s = 0%nat) by lia. assert (Hz : zsum (del s) n = 1) by lia.
    exists n. split; [|split; [|split]].
    + intros i Hi. cbn. unfold upd. rewrite (proj2 (Nat.eqb_neq i t)) by lia. auto.
    + cbn [s_count set_thread]. change (tref (set_thread s t ?a ?b ?c ?d)) with (fun i => gref (s_threads (set_thread s t a b c d) i)).
      rewrite zsum_set by auto. change (fun i => gref (s_threads s i)) with (tref s). unfold gref. cbn [t_refs]. lia.
    + cbn [s_count s_deletes set_thread]. change (del (set_thread s t ?a ?b ?c ?d)) with (fun i => gdel (s_threads (set_thread s t a b c d) i)).
      rewrite zsum_set by auto. change (fun i => gdel (s_threads s i)) with (del s). rewrite Hz, Hd, E0. unfold gdel. cbn [t_pc]. rewrite Hpc. reflexivity.
    + cbn. unfold touch. rewrite D, Hd. reflexivity.
Qed.

Lemma treach_T s s' n : T s n -> treach s s' -> exists m, T s' m.
Proof. intros H R. induction R as [|s s1 s2 R IH St]; [eauto|]. destruct (IH H) as [m Tm]. eapply tstep_T; eauto. Qed.

Lemma alone_T t : T (alone t) (S t).
Proof.
  assert (Z0 : forall n, (n <= t)%nat -> zsum (tref (alone t)) n = 0).
  { intros n Hn. apply zsum_zero. intros i Hi. unfold tref. cbn. rewrite (proj2 (Nat.eqb_neq i t)) by lia. reflexivity. }
  split; [|split; [|split; [|reflexivity]]].
  - intros u Hu. cbn. rewrite (proj2 (Nat.eqb_neq u t)) by lia. auto.
  - cbn [zsum]. rewrite Z0 by lia. unfold tref. cbn. rewrite Nat.eqb_refl. reflexivity.
  - rewrite zsum_zero; [reflexivity|]. intros i _. reflexivity.
Qed.

Lemma T_facts s n : T s n ->
  s_after s = false /\ (s_deletes s <= 1)%nat /\
  (s_deletes s = 1%nat -> forall t, t_refs (s_threads s t) = 0%nat /\ t_pc (s_threads s t) = Idle) /\
  ((forall t, t_refs (s_threads s t) = 0%nat /\ t_pc (s_threads s t) = Idle) -> s_deletes s = 1%nat).
Proof.
  intros (A & B & C & D). pose proof (zsum_nonneg (del s) n (del_nonneg s)) as Hd. pose proof (zsum_nonneg (tref s) n (tref_nonneg s)) as Hr.
  split; [auto|]. split; [destruct (s_count s =? 0); lia|]. split.
  - intros E t. destruct (s_count s =? 0) eqn:E0; [|lia]. apply Z.eqb_eq in E0.
    destruct (Nat.lt_ge_cases t n) as [Ht|Ht]; [|auto].
    pose proof (zsum_ge (tref s) n t (tref_nonneg s) Ht) as G1. pose proof (zsum_ge (del s) n t (del_nonneg s) Ht) as G2.
    unfold tref in G1 at 1. unfold del in G2 at 1. split; [lia|]. destruct (t_pc (s_threads s t)); [auto|lia].
  - intros H. rewrite zsum_zero in B by (intros i _; unfold tref; destruct (H i) as [-> _]; reflexivity). rewrite B in C.
    rewrite zsum_zero in C by (intros i _; unfold del; destruct (H i) as [_ ->]; reflexivity). cbn in C. lia.
Qed.

(** *** Checking concrete programs *)
Fixpoint checked (ok : hist -> op -> Prop) (ops : list op) (st : rt) (h : hist) : Prop :=
  match ops with
  | [] => True
  | o :: ops => ok h o /\ match step o st with Ok p => checked ok ops (fst p) ((o, snd p) :: h) | Crash => True end
  end.

Lemma checked_always ok ops : checked ok ops rt0 [] -> always ok ops.
Proof.
  unfold always. generalize rt0, (@nil (op * option nat)). induction ops as [|o ops IH]; intros s g H before o' after st h E R.
  - destruct before; discriminate.
  - destruct H as [H1 H2]. destruct before as [|b before]; cbn in E; injection E as -> ->.
    + cbn in R. injection R as <- <-. exact H1.
    + cbn [run] in R. destruct (step b s) as [[s1 r]|]; [|discriminate]. cbn [bind fst snd] in *. eapply IH; eauto.
Qed.

Fixpoint vchecked (ok : prog -> vop -> Prop) (l : list vop) (p : prog) : Prop :=
  match l with [] => True | s :: l => ok p s /\ match vstep s p with Ok p => vchecked ok l p | Crash => True end end.

Lemma vchecked_always ok l : vchecked ok l prog0 -> valways ok l.
Proof.
  unfold valways. generalize prog0. induction l as [|o ops IH]; intros s H before o' after p E R.
  - destruct before; discriminate.
  - destruct H as [H1 H2]. destruct before as [|b before]; cbn in E; injection E as -> ->.
    + cbn in R. injection R as <-. exact H1.
    + cbn [vrun] in R. destruct (vstep b s) as [s1|]; [|discriminate]. cbn [bind] in *. eapply IH; eauto.
Qed.

Fixpoint ichecked (ok : iprog -> iop -> Prop) (l : list iop) (p : iprog) : Prop :=
  match l with [] => True | s :: l => ok p s /\ match istep s p with Ok p => ichecked ok l p | Crash => True end end.

Lemma ichecked_always ok l : ichecked ok l iprog0 -> ialways ok l.
Proof.
  unfold ialways. generalize iprog0. induction l as [|o ops IH]; intros s H before o' after p E R.
  - destruct before; discriminate.
  - destruct H as [H1 H2]. destruct before as [|b before]; cbn in E; injection E as -> ->.
    + cbn in R. injection R as <-. exact H1.
    + cbn [irun] in R. destruct (istep b s) as [s1|]; [|discriminate]. cbn [bind] in *. eapply IH; eauto.
Qed.

(** *** The theorems *)
Lemma run_ok' ops st h : always correct_use ops -> always avoids ops -> run ops rt0 [] = Ok (st, h) -> J h st.
Proof. intros C V R. destruct (run_ok ops C V) as (st' & h' & R' & Jh). rewrite R in R'. injection R' as <- <-. exact Jh. Qed.

Lemma no_crash ops : always correct_use ops -> always avoids ops -> run ops rt0 [] <> Crash.
Proof. intros C V. destruct (run_ok ops C V) as (st' & h' & R' & _). congruence. Qed.

Lemma exists_iff ops st h x : always correct_use ops -> always avoids ops -> run ops rt0 [] = Ok (st, h) -> (alive st x = true <-> lives h x).
Proof. intros C V R. pose proof (run_ok' ops st h C V R) as Jh. split; [apply alive_lives|apply lives_alive]; auto. Qed.

Lemma count_ok ops st h x ps : always correct_use ops -> always avoids ops -> run ops rt0 [] = Ok (st, h) -> lives h x ->
  NoDup ps -> (forall p, In p ps <-> lives h p /\ holds h p x) -> use_count st x = Ok (app_refs h x + Z.of_nat (length ps)).
Proof. intros C V R. apply use_count_ok. eapply run_ok'; eauto. Qed.

Lemma no_leak_ok ops st h : always correct_use ops -> always avoids ops -> run ops rt0 [] = Ok (st, h) ->
  (forall x, app_refs h x <= 0) -> (forall x, alive st x = false) /\ (forall lib, r_dl st lib = 0).
Proof. intros C V R. apply no_leak. eapply run_ok'; eauto. Qed.

Lemma wrappers_ok l : valways correct_cpp l -> valways careful_cpp l ->
  exists p n, vrun l prog0 = Ok p /\ (forall v, (n <= v)%nat -> p_vars p v = None) /\
    (forall x, app_refs (p_hist p) x = Z.of_nat (variables (p_vars p) x n)) /\
    (forall x, alive (p_st p) x = true <-> lives (p_hist p) x) /\
    (forall v x, handle (p_vars p) v = Some x -> alive (p_st p) x = true) /\
    ((forall v, handle (p_vars p) v = None) -> (forall x, alive (p_st p) x = false) /\ (forall lib, r_dl (p_st p) lib = 0)).
Proof.
  intros C V. destruct (vrun_ok l C V) as (p & n & R & Jp & B & A). exists p, n. split; [exact R|]. split; [exact B|].
  assert (A' : forall x, app_refs (p_hist p) x = Z.of_nat (variables (p_vars p) x n)) by (intros; rewrite A; apply vrefs_variables).
  split; [exact A'|]. split; [intros x; split; [apply alive_lives|apply lives_alive]; auto|]. split.
  - intros v x Hv. apply (lives_alive _ _ Jp). apply lives_app. rewrite A. eapply vrefs_handle; eauto.
  - intros H. apply (no_leak _ _ Jp). intros x. rewrite A. unfold vrefs. rewrite zsum_zero; [lia|]. intros v _. unfold points, refers. rewrite H. reflexivity.
Qed.

Lemma pointers_ok l : ialways correct_ptr l -> ialways careful_ptr l ->
  exists p n, irun l iprog0 = Ok p /\ (forall v, (n <= v)%nat -> i_vars p v = None) /\
    (forall x, alive (i_st p) x = true <-> exists v, handle (i_vars p) v = Some x) /\
    (forall x, alive (i_st p) x = true -> o_count (r_obj (i_st p) x) = Z.of_nat (variables (i_vars p) x n)).
Proof.
  intros C V. destruct (irun_ok l C V) as (p & n & R & Xp). pose proof Xp as (I & K & B). exists p, n. split; [exact R|]. split; [exact B|].
  pose proof (held_views p n Xp) as Hh. split.
  - intros x. split.
    + intros Hx. destruct (i_alive _ _ _ I x Hx) as [E Hc]. rewrite E, Hh in Hc. rewrite vrefs_variables in Hc. unfold variables in Hc.
      destruct (filter (refers (i_vars p) x) (seq 0 n)) as [|v l'] eqn:F; [cbn in Hc; lia|].
      assert (Hin : In v (filter (refers (i_vars p) x) (seq 0 n))) by (rewrite F; left; reflexivity).
      apply filter_In in Hin. destruct Hin as [_ Hr]. unfold refers in Hr. exists v. destruct (handle (i_vars p) v); [|discriminate].
      apply Nat.eqb_eq in Hr. congruence.
    + intros [v Hv]. eapply Inv_Ppos_alive; [exact I|]. eapply vrefs_handle; eauto.
  - intros x Hx. destruct (i_alive _ _ _ I x Hx) as [E _]. rewrite E, Hh, vrefs_variables. lia.
Qed.

Lemma threads_ok t s : treach (alone t) s ->
  s_after s = false /\ (s_deletes s <= 1)%nat /\
  (s_deletes s = 1%nat -> forall t, t_refs (s_threads s t) = 0%nat /\ t_pc (s_threads s t) = Idle) /\
  ((forall t, t_refs (s_threads s t) = 0%nat /\ t_pc (s_threads s t) = Idle) -> s_deletes s = 1%nat).
Proof. intros R. destruct (treach_T _ _ _ (alone_T t) R) as [m Tm]. eapply T_facts; eauto. Qed.

(** conditions on a history, for the examples *)
Definition hist_of (r : res (rt * hist)) : option hist := match r with Ok p => Some (snd p) | Crash => None end.
Fixpoint tails (ok : hist -> op -> Prop) (h : hist) : Prop :=
  match h with [] => True | e :: h => ok h (fst e) /\ tails ok h end.

Lemma run_tails ok : forall ops st h0 st' h, run ops st h0 = Ok (st', h) -> tails ok h -> tails ok h0.
Proof.
  induction ops as [|o ops IH]; intros st h0 st' h R H; cbn [run] in R.
  - injection R as <- <-. exact H.
  - destruct (step o st) as [[s1 r]|]; [|discriminate]. cbn [bind fst snd] in R. apply IH in R; auto. exact (proj2 R).
Qed.

Lemma tails_always ok ops h : hist_of (run ops rt0 []) = Some h -> tails ok h -> always ok ops.
Proof.
  intros E H. unfold hist_of in E. destruct (run ops rt0 []) as [[st h1]|] eqn:R; [|discriminate]. cbn in E. injection E as ->.
  unfold always. revert R. generalize rt0, (@nil (op * option nat)). induction ops as [|o ops IH]; intros s g R before o' after st' h' E R'.
  - destruct before; discriminate.
  - cbn [run] in R. destruct (step o s) as [[s1 r]|] eqn:So; [|discriminate]. cbn [bind fst snd] in R.
    destruct before as [|b before]; cbn in E; injection E as Eb Eo; subst.
    + cbn in R'. injection R' as <- <-. pose proof (run_tails ok _ _ _ _ _ R H) as [T _]. exact T.
    + cbn [run] in R'. rewrite So in R'. cbn [bind fst snd] in R'. eapply IH; eauto.
Qed.

Lemma always_snoc ok ops o : always ok ops -> (forall st h, run ops rt0 [] = Ok (st, h) -> ok h o) -> always ok (ops ++ [o]).
Proof.
  intros H Ho before o' after st h E R. destruct (exists_last (l := o' :: after)) as (l & z & Ez); [discriminate|].
  rewrite Ez, app_assoc in E. apply app_inj_tail in E. destruct E as [E1 E2]. subst z. destruct l as [|y l].
  - cbn in Ez. injection Ez as -> ->. rewrite app_nil_r in E1. subst before. eapply Ho; eauto.
  - cbn in Ez. injection Ez as -> ->. eapply (H before y l); eauto.
Qed.

(** *** Static linking *)
Lemma link_ok ops st h d ms : always correct_use ops -> always avoids ops -> run ops rt0 [] = Ok (st, h) ->
  correct_use h (StaticLink d ms) ->
  exists st' x, step (StaticLink d ms) st = Ok (st', Some x) /\ alive st x = false /\ alive st' x = true /\ use_count st' x = Ok 1 /\
    (forall y, alive st y = true -> alive st' y = true /\ use_count st' y = use_count st y) /\
    (forall found, step (FunctionPtr x found) st' <> Crash) /\ (forall found, step (NewKernel d x found) st' <> Crash).
Proof.
  intros C V R [U _]. pose proof (run_ok' ops st h C V R) as Jh. pose proof (j_inv _ _ Jh) as I. cbn [uses] in U.
  assert (D : is_a st KDevice d = true) by (destruct (U KDevice d ltac:(cbn; auto)); eapply use_is_a; eauto).
  assert (M : forall m, In m ms -> is_a st KModule m = true).
  { intros m Hm. destruct (U KModule m) as [L K]; [right; apply in_map_iff; eauto|]. eapply use_is_a; eauto. }
  assert (FM : forallb (is_a st KModule) ms = true) by (apply forallb_forall; auto).
  assert (LO : libs_open st (flat_map (fun m => o_libs (r_obj st m)) ms) = true).
  { unfold libs_open. apply forallb_forall. intros lib Hl. apply in_flat_map in Hl as (m & Hm & Hl).
    destruct (is_a_alive _ _ _ (M m Hm)) as [A _]. pose proof (libs_are_open _ _ _ I A) as O. unfold libs_open in O.
    rewrite forallb_forall in O. auto. }
  destruct (is_a_alive _ _ _ D) as [AD KD]. destruct (alive_lt _ _ AD) as [LD _].
  cbn [step]. rewrite D, FM. cbn [andb need]. eexists _, (r_next st). split; [reflexivity|].
  assert (NE : forall y, alive st y = true -> Nat.eqb y (r_next st) = false).
  { intros y Hy. apply alive_lt in Hy as [Hy _]. apply Nat.eqb_neq. lia. }
  split; [unfold alive; rewrite Nat.ltb_irrefl; auto|].
  assert (AX : forall o, o_freed o = false -> alive (fst (create o st)) (r_next st) = true).
  { intros o F. unfold alive, create. cbn [fst r_next r_obj]. unfold upd. rewrite Nat.eqb_refl, F.
    destruct (Nat.ltb_spec (r_next st) (S (r_next st))); auto; lia. }
  split; [apply AX; auto|]. split; [unfold use_count; rewrite AX by auto; unfold create, upd; cbn [fst r_obj]; rewrite Nat.eqb_refl; auto|].
  split.
  - intros y Hy. assert (A' : forall o, alive (fst (create o st)) y = true).
    { intros o. unfold alive, create in *. cbn [fst r_next r_obj]. unfold upd. rewrite (NE y Hy). apply andb_prop in Hy as [H1 H2].
      rewrite H2. apply Nat.ltb_lt in H1. destruct (Nat.ltb_spec y (S (r_next st))); auto; lia. }
    split; [apply A'|]. unfold use_count. rewrite A', Hy. unfold create, upd. cbn [fst r_obj]. rewrite (NE y Hy). auto.
  - assert (IX : forall o, o_freed o = false -> o_kind o = KModule -> is_a (fst (create o st)) KModule (r_next st) = true).
    { intros o F K. unfold is_a. rewrite AX by auto. unfold create, upd. cbn [fst r_obj]. rewrite Nat.eqb_refl, K. auto. }
    assert (ID : forall o, is_a (fst (create o st)) KDevice d = true).
    { intros o. unfold is_a, alive, create. cbn [fst r_next r_obj]. unfold upd. rewrite (NE d AD). unfold is_a, alive in D.
      apply andb_prop in D as [D1 D2]. apply andb_prop in D1 as [D1 D3]. rewrite D2, D3. apply Nat.ltb_lt in D1.
      destruct (Nat.ltb_spec d (S (r_next st))); auto; lia. }
    split; intros found.
    + cbn [step]. rewrite IX by auto. unfold create. cbn [fst snd r_obj]. unfold upd. rewrite Nat.eqb_refl. cbn [o_libs].
      unfold libs_open in *. cbn [r_dl]. rewrite LO. discriminate.
    + cbn [step]. rewrite IX, ID by auto. match goal with |- context [libs_open ?s ?l] => assert (L2 : libs_open s l = true) end.
      { unfold create. cbn [fst snd r_obj]. unfold upd. rewrite Nat.eqb_refl. cbn [o_libs]. unfold libs_open in *. exact LO. }
      rewrite L2. cbn [andb need]. destruct found; [|discriminate].
      unfold ref_inc. match goal with |- context [alive ?s ?x] => assert (A' : alive s x = true) end.
      { unfold alive, create. cbn [fst snd r_next r_obj]. unfold upd. rewrite !Nat.eqb_refl.
        destruct (Nat.eqb_spec (r_next st) (S (r_next st))); [lia|]. cbn [o_freed].
        destruct (Nat.ltb_spec (r_next st) (S (S (r_next st)))); auto; lia. }
      rewrite A'. discriminate.
Qed.
