(** Proofs about the reference counts of the runtime, part 3: every call, and runs. *)
From Coq Require Import ZArith List Bool Lia Arith.
From Verif Require Import RefCountModel RefCountSpec RefCountProofs RefCountProofs2.
Import ListNotations.
Open Scope Z_scope.

Definition goal (h : hist) (st : rt) (o : op) : Prop := exists st' r, step o st = Ok (st', r) /\ J ((o, r) :: h) st'.

(** *** Releasing leaves: futures and fences *)
Definition dec1 (o : obj) : obj :=
  if o_count o - 1 =? 0 then with_freed (with_count o (o_count o - 1)) else with_count o (o_count o - 1).
Definition leaf (k : kind) : Prop := k = KFuture \/ k = KFence.

Lemma release_leaf st x : alive st x = true -> leaf (o_kind (r_obj st x)) -> release x st = Ok (set_obj st x (dec1 (r_obj st x))).
Proof.
  intros Hx [K|K]; unfold release, nesting; cbn [ref_dec]; rewrite Hx, K; unfold dec1; destruct (_ =? 0); reflexivity.
Qed.

Lemma each_leaf : forall l st, NoDup l -> (forall x, In x l -> alive st x = true /\ leaf (o_kind (r_obj st x))) ->
  exists st', each release l st = Ok st' /\ r_next st' = r_next st /\ (forall lib, r_dl st' lib = r_dl st lib) /\
    forall y, r_obj st' y = if in_dec Nat.eq_dec y l then dec1 (r_obj st y) else r_obj st y.
Proof.
  induction l as [|x l IH]; intros st ND Hl; cbn [each].
  - exists st. repeat split; auto.
  - inversion ND as [|? ? Nx ND']; subst. destruct (Hl x (or_introl eq_refl)) as [Hx Kx].
    rewrite (release_leaf st x Hx Kx). cbn [bind]. set (st1 := set_obj st x _).
    assert (O1 : forall y, y <> x -> r_obj st1 y = r_obj st y).
    { intros y Hy. subst st1. rewrite obj_set, (proj2 (Nat.eqb_neq y x)); auto. }
    destruct (IH st1 ND') as (st' & E & N & D & Ob).
    + intros y Hy. assert (y <> x) by congruence. destruct (Hl y (or_intror Hy)) as [Hay Hky]. unfold alive.
      rewrite O1 by auto. split; [exact Hay|exact Hky].
    + exists st'. split; [exact E|]. split; [exact N|]. split; [intros; rewrite D; reflexivity|]. intros y. rewrite Ob.
      destruct (Nat.eq_dec x y) as [->|Nxy].
      * destruct (in_dec Nat.eq_dec y l) as [Hy|_]; [contradiction|]. destruct (in_dec Nat.eq_dec y (y :: l)) as [_|Hn]; [|destruct Hn; left; auto].
        subst st1. rewrite obj_set, Nat.eqb_refl. reflexivity.
      * rewrite O1 by congruence. destruct (in_dec Nat.eq_dec y l) as [Hy|Hy], (in_dec Nat.eq_dec y (x :: l)) as [Hz|Hz]; auto.
        -- destruct Hz; right; auto.
        -- destruct Hz; [congruence|contradiction].
Qed.

Lemma owned_once P D st p : Inv P D st -> alive st p = true -> (forall x, In x (owned (r_obj st p)) -> o_kind (r_obj st x) <> KModule) ->
  NoDup (owned (r_obj st p)).
Proof.
  intros I Hp HK. destruct (alive_lt _ _ Hp) as [Hlt Hf]. apply nodup_occ. intros x.
  destruct (in_dec Nat.eq_dec x (owned (r_obj st p))) as [Hin|Hn]; [|rewrite occ_notin by auto; lia].
  pose proof (held_ge st x p Hlt) as Hg. unfold keeps in Hg. rewrite Hf in Hg.
  assert (Hx : alive st x = true). { eapply Inv_held_alive; eauto. eapply keeps_in; eauto. }
  destruct (alive_lt _ _ Hx). pose proof (i_once _ _ _ I x H (HK x Hin)). lia.
Qed.

(** dropping everything an object keeps: its references become pending *)
Lemma clear_inv P st p : Inv P (fun _ => 0) st -> is_a st KList p = true ->
  Inv (fun y => P y + occ y (owned (r_obj st p))) (fun _ => 0) (set_obj st p (with_work (r_obj st p) [] [] (o_lists (r_obj st p)))) /\
  owned (with_work (r_obj st p) [] [] (o_lists (r_obj st p))) = [].
Proof.
  intros I Ha. destruct (is_a_alive _ _ _ Ha) as [Hp Kp]. destruct (alive_lt _ _ Hp) as [Hlt Hf].
  pose proof (i_typed _ _ _ I p Hlt) as T. rewrite Kp in T. pose proof (typed_parts _ _ _ T) as (Em & Ef & Eu & El & Eb).
  set (o := with_work _ _ _ _).
  assert (Oe : owned o = []). { subst o. unfold owned. cbn [with_work o_module o_fences o_futures o_lists]. rewrite Em, El by congruence. reflexivity. }
  assert (Hh : forall y, held (set_obj st p o) y = held st y - occ y (owned (r_obj st p))).
  { intros y. rewrite held_set by auto. unfold keeps. rewrite Hf, Oe, occ_nil. destruct (o_freed o); lia. }
  assert (Hge : forall y, 0 <= held st y - occ y (owned (r_obj st p))).
  { intros y. pose proof (held_ge st y p Hlt) as G. unfold keeps in G. rewrite Hf in G. lia. }
  assert (Ha' : forall y, alive (set_obj st p o) y = alive st y).
  { intros y. rewrite alive_set. destruct (Nat.eqb_spec y p) as [E|N]; [subst y|]; auto. }
  assert (Hkk : forall y, o_kind (r_obj (set_obj st p o) y) = o_kind (r_obj st y)).
  { intros y. rewrite obj_set. destruct (Nat.eqb_spec y p) as [E|N]; [subst y|]; auto. }
  assert (Hc : forall y, o_count (r_obj (set_obj st p o) y) = o_count (r_obj st y)).
  { intros y. rewrite obj_set. destruct (Nat.eqb_spec y p) as [E|N]; [subst y|]; auto. }
  split; [|exact Oe]. constructor.
  - intros y Hy. rewrite Ha' in Hy. rewrite Hc, Hh. destruct (i_alive _ _ _ I y Hy). lia.
  - intros y Hy. rewrite Ha' in Hy. rewrite Hh. destruct (i_dead _ _ _ I y Hy). specialize (Hge y).
    pose proof (occ_nonneg y (owned (r_obj st p))). lia.
  - intros y. pose proof (i_pos _ _ _ I y). pose proof (occ_nonneg y (owned (r_obj st p))). lia.
  - intros q Hq. rewrite Hkk. rewrite obj_set. destruct (Nat.eqb_spec q p) as [E|N]; [subst q|].
    + subst o. unfold typed. cbn [with_work o_module o_fences o_futures o_lists o_libs]. rewrite Em, El, Eb by congruence.
      cbn [In]. repeat split; intros; try discriminate; try tauto.
    + apply (typed_kinds st); auto. apply (i_typed _ _ _ I q Hq).
  - intros y Hy Hk. rewrite Hkk in Hk. rewrite Hh. pose proof (i_once _ _ _ I y Hy Hk). pose proof (occ_nonneg y (owned (r_obj st p))). lia.
  - intros l. rewrite opened_set by auto. unfold opens. subst o. cbn [with_work o_freed o_libs set_obj r_dl]. rewrite Hf, (i_dl _ _ _ I l). lia.
  - lia.
Qed.

Lemma step_reset h st l : J h st -> is_a st KList l = true -> goal h st (ListReset l).
Proof.
  intros Jh Ha. pose proof (j_inv _ _ Jh) as I. destruct (is_a_alive _ _ _ Ha) as [Hp Kp]. destruct (alive_lt _ _ Hp) as [Hlt Hf].
  pose proof (i_typed _ _ _ I l Hlt) as T. rewrite Kp in T. pose proof (typed_parts _ _ _ T) as (Em & Ef & Eu & El & Eb).
  destruct T as (Tm & Tf & Tu & Tl & Tb).
  unfold goal. cbn [step]. rewrite Ha. cbn [need]. set (L := o_fences (r_obj st l) ++ o_futures (r_obj st l)).
  assert (Ow : owned (r_obj st l) = L). { unfold owned. rewrite Em, El by congruence. cbn. rewrite app_nil_r. reflexivity. }
  assert (Lf : forall x, In x L -> alive st x = true /\ leaf (o_kind (r_obj st x))).
  { intros x Hx. split. { eapply Inv_held_alive; eauto. eapply keeps_in; eauto. rewrite Ow; auto. }
    unfold leaf. apply in_app_or in Hx. destruct Hx as [Hx|Hx]; [destruct (Tf x Hx) as (_&_&->)|destruct (Tu x Hx) as (_&_&->)]; auto. }
  assert (Nl : ~ In l L). { intros Hl. destruct (Lf l Hl) as [_ [K|K]]; congruence. }
  assert (ND : NoDup L).
  { rewrite <- Ow. eapply owned_once; eauto. intros x Hx. rewrite Ow in Hx. destruct (Lf x Hx) as [_ [->| ->]]; discriminate. }
  destruct (each_leaf L st ND Lf) as (st1 & E1 & N1 & D1 & O1).
  assert (Ol : r_obj st1 l = r_obj st l). { rewrite O1. destruct (in_dec Nat.eq_dec l L); [contradiction|reflexivity]. }
  unfold L in E1. rewrite each_app in E1. destruct (each release (o_fences (r_obj st l)) st) as [st2|]; [|discriminate]. cbn [bind] in *.
  rewrite E1. cbn [bind]. rewrite Ol. eexists _, _. split; [reflexivity|].
  destruct (clear_inv _ st l I Ha) as [I0 Oe]. set (o := with_work (r_obj st l) [] [] (o_lists (r_obj st l))) in *.
  destruct (each_leaf L (set_obj st l o) ND) as (st3 & E3 & N3 & D3 & O3).
  { intros x Hx. destruct (Lf x Hx) as [Hx1 Hx2]. assert (x <> l) by congruence.
    rewrite alive_set, obj_set, (proj2 (Nat.eqb_neq x l)) by auto. auto. }
  destruct (each_dec release leaf) with (l := L) (st := set_obj st l o) (P := app_refs h) as (st4 & E4 & I4 & S4).
  { intros x s P Is HPx Hlf. apply ref_dec_inv; auto. unfold nesting. destruct Hlf as [-> | ->]; cbn; split; try lia; discriminate. }
  { eapply Inv_P; [|exact I0]. intros y. cbn beta. rewrite Ow. reflexivity. }
  { apply (i_pos _ _ _ I). }
  { intros x Hx. assert (x <> l) by congruence. rewrite obj_set, (proj2 (Nat.eqb_neq x l)) by auto. apply Lf; auto. }
  rewrite E3 in E4. injection E4 as <-.
  assert (Eq : forall x, r_obj st3 x = r_obj (set_obj st1 l o) x).
  { intros x. rewrite O3, !obj_set, O1. destruct (Nat.eqb_spec x l) as [E|N]; [subst x|reflexivity].
    destruct (in_dec Nat.eq_dec l L); [contradiction|reflexivity]. }
  constructor.
  - eapply Inv_P; [intros; symmetry; apply app_refs_none; reflexivity|].
    eapply (Inv_st _ _ st3); [exact Eq| | |exact I4].
    + rewrite N3. cbn. auto.
    + intros lib. rewrite D3. cbn. rewrite D1. reflexivity.
  - intros k x Hi. apply is_kind_cons in Hi. destruct Hi as [[E _]|Hi]; [discriminate|].
    destruct (j_kind _ _ Jh k x Hi) as [Hx Hk]. change (r_next (set_obj st1 l o)) with (r_next st1). rewrite N1. split; auto.
    rewrite obj_set, O1. destruct (Nat.eqb_spec x l) as [E|N]; [subst x; exact Hk|].
    destruct (in_dec Nat.eq_dec x L); auto. unfold dec1. destruct (_ =? 0); exact Hk.
  - intros p x. rewrite holds_cons, <- (j_holds _ _ Jh), obj_set, O1. change (r_next (set_obj st1 l o)) with (r_next st1). rewrite N1.
    destruct (Nat.eqb_spec p l) as [E|N]; [subst p|].
    + rewrite Oe. split; [intros [_ []]|]. intros [[E _]|[(d & E & _)|[_ Hn]]]; congruence.
    + assert (owned (if in_dec Nat.eq_dec p L then dec1 (r_obj st p) else r_obj st p) = owned (r_obj st p)) as ->.
      { destruct (in_dec Nat.eq_dec p L); auto. unfold dec1. destruct (_ =? 0); reflexivity. }
      split.
      * intros H. right; right. split; auto. congruence.
      * intros [[E _]|[(d & E & _)|[H _]]]; try discriminate. exact H.
  - intros x Hx Hxk. apply is_kind_cons. right. apply (j_queue _ _ Jh).
    + change (r_next (set_obj st1 l o)) with (r_next st1) in Hx. lia.
    + rewrite obj_set, O1 in Hxk. destruct (Nat.eqb_spec x l) as [E|N]; [subst x; exact Hxk|].
      destruct (in_dec Nat.eq_dec x L); auto. unfold dec1 in Hxk. destruct (_ =? 0); exact Hxk.
Qed.

(** *** Modules and kernels *)
Definition lib_module (lib : nat) : obj :=
  {| o_kind := KModule; o_count := 1; o_freed := false; o_libs := [lib]; o_module := None; o_fences := []; o_futures := []; o_lists := [] |}.

Lemma load_inv P st lib found : Inv P (fun _ => 0) st ->
  let q := load_module lib found st in
  match snd q with
  | Some x => x = r_next st /\ r_next (fst q) = S (r_next st) /\ o_kind (r_obj (fst q) x) = KModule /\
              Inv (upd P (r_next st) 1) (fun _ => 0) (fst q) /\ ext st (fst q)
  | None => fst q = st
  end.
Proof.
  intros I. destruct lib as [lib|]; [destruct found|]; cbn [load_module fst snd create]; auto.
  - split; [reflexivity|]. split; [reflexivity|]. split; [cbn; unfold upd; rewrite Nat.eqb_refl; reflexivity|]. split.
    + apply (create_inv P (fun _ => 0) (dl_open lib st) (lib_module lib)); [repeat split|reflexivity|reflexivity|reflexivity|lia|]. apply open_inv; auto.
    + apply (ext_trans _ (dl_open lib st)); [repeat split; auto; cbn; lia|]. apply (create_ext (lib_module lib)). reflexivity.
  - split; [reflexivity|]. split; [reflexivity|]. split; [cbn; unfold upd; rewrite Nat.eqb_refl; reflexivity|]. split.
    + apply (create_inv P (fun _ => 0) st (blank KModule)); [repeat split|reflexivity|reflexivity|reflexivity|lia|].
      apply (Inv_D _ (fun _ => 0)); auto.
    + apply (create_ext (blank KModule)). reflexivity.
Qed.

Lemma release_temp P st x : Inv P (fun _ => 0) st -> 0 < P x -> o_kind (r_obj st x) = KOptions ->
  exists st', release x st = Ok st' /\ Inv (upd P x (P x - 1)) (fun _ => 0) st' /\ same st st'.
Proof. intros I HP K. apply ref_dec_inv; auto. unfold nesting. rewrite K. cbn. split; [lia|discriminate]. Qed.

Lemma step_load h st d lib found : J h st -> is_a st KDevice d = true -> goal h st (LoadModule d lib found).
Proof.
  intros Jh Ha. pose proof (j_inv _ _ Jh) as I. unfold goal. cbn [step]. rewrite Ha. cbn [need].
  assert (A0 : app_refs h (r_next st) = 0) by (apply app_refs_new; auto).
  set (st1 := fst (create (blank KOptions) st)). change (snd (create (blank KOptions) st)) with (r_next st).
  assert (I1 : Inv (upd (app_refs h) (r_next st) 1) (fun _ => 0) st1).
  { apply create_inv; [repeat split|reflexivity|reflexivity|cbn; congruence|lia|]. apply (Inv_D _ (fun _ => 0)); auto. }
  assert (E1 : ext st st1) by (apply create_ext; reflexivity).
  assert (K1 : o_kind (r_obj st1 (r_next st)) = KOptions). { subst st1. rewrite create_obj, Nat.eqb_refl. reflexivity. }
  pose proof (load_inv _ st1 lib found I1) as L. destruct (load_module lib found st1) as [st2 r]. cbn [fst snd] in *.
  change (r_next st1) with (S (r_next st)) in L. destruct r as [x|].
  - destruct L as (-> & N2 & K2 & I2 & E2).
    destruct (release_temp _ st2 (r_next st) I2) as (st3 & E3 & I3 & S3).
    { unfold upd. rewrite Nat.eqb_refl, (proj2 (Nat.eqb_neq (r_next st) (S (r_next st)))) by lia. lia. }
    { destruct E2 as (_ & O2 & _). destruct (O2 (r_next st)) as [<- _]; [cbn; lia|auto]. }
    rewrite E3. cbn [bind]. eexists _, _. split; [reflexivity|]. apply (J_ext h st); auto; try discriminate.
    + eapply ext_trans; [exact E1|]. eapply ext_trans; [exact E2|]. apply same_ext; auto.
    + eapply Inv_P; [|exact I3]. intros y. rewrite app_refs_some by reflexivity. cbn [keeper]. unfold upd.
      rewrite (Nat.eqb_sym (S (r_next st)) y), Nat.eqb_refl.
      destruct (Nat.eqb_spec y (r_next st)) as [E|N]; [subst y|].
      * rewrite (proj2 (Nat.eqb_neq (r_next st) (S (r_next st)))) by lia. lia.
      * destruct (Nat.eqb_spec y (S (r_next st))) as [E|]; [subst y|lia].
        assert (app_refs h (S (r_next st)) = 0); [|lia].
        destruct (i_dead _ _ _ I (S (r_next st))); auto. unfold alive. rewrite (proj2 (Nat.ltb_ge _ _)) by lia. reflexivity.
    + intros x k Hx Hk. injection Hx as <-. injection Hk as <-. destruct S3 as [N3 S3]. rewrite <- N3, N2.
      split; [lia|]. destruct (S3 (S (r_next st))) as (<- & _). auto.
    + intros x Hx Hk. exfalso. destruct S3 as [N3 S3]. rewrite <- N3, N2 in Hx. destruct (S3 x) as (K3 & _). rewrite <- K3 in Hk.
      destruct (Nat.eq_dec x (r_next st)) as [->|Nx].
      * destruct E2 as (_ & O2 & _). destruct (O2 (r_next st)) as [K4 _]; [cbn; lia|]. congruence.
      * assert (x = S (r_next st)) by lia. subst x. congruence.
  - subst st2. destruct (release_temp _ st1 (r_next st) I1) as (st3 & E3 & I3 & S3); auto.
    { unfold upd. rewrite Nat.eqb_refl. lia. }
    rewrite E3. cbn [bind]. eexists _, _. split; [reflexivity|]. apply (J_ext h st); auto; try discriminate.
    + eapply ext_trans; [exact E1|]. apply same_ext; auto.
    + eapply Inv_P; [|exact I3]. intros y. rewrite app_refs_none by reflexivity. unfold upd. rewrite Nat.eqb_refl.
      destruct (Nat.eqb_spec y (r_next st)) as [E|N]; [subst y|]; lia.
    + intros x Hx Hk. exfalso. destruct S3 as [N3 S3]. rewrite <- N3 in Hx. cbn in Hx. assert (x = r_next st) by lia. subst x.
      destruct (S3 (r_next st)) as (K3 & _). congruence.
Qed.

Lemma step_load_options h st d lib found opts : J h st -> is_a st KDevice d = true -> is_a st KOptions opts = true ->
  goal h st (LoadModuleWithOptions d lib found opts).
Proof.
  intros Jh Hd Ho. unfold goal. cbn [step]. rewrite Hd, Ho. cbn [need andb].
  pose proof (load_inv _ st lib found (j_inv _ _ Jh)) as L. destruct (load_module lib found st) as [st' r]. cbn [fst snd] in *.
  eexists _, _. split; [reflexivity|]. destruct r as [x|].
  - destruct L as (-> & N & K & I' & E'). apply (J_ext h st); auto; try discriminate.
    + eapply Inv_P; [|exact I']. intros y. rewrite app_refs_some by reflexivity. cbn [keeper]. unfold upd.
      rewrite (Nat.eqb_sym (r_next st) y). destruct (Nat.eqb_spec y (r_next st)) as [E|]; [subst y|lia].
      rewrite (app_refs_new h st Jh). lia.
    + intros x k Hx Hk. injection Hx as <-. injection Hk as <-. rewrite N. split; [lia|auto].
    + intros x Hx Hk. rewrite N in Hx. assert (x = r_next st) by lia. subst x. congruence.
  - subst st'. apply J_fail; auto; discriminate.
Qed.

Lemma libs_are_open P st m : Inv P (fun _ => 0) st -> alive st m = true -> libs_open st (o_libs (r_obj st m)) = true.
Proof.
  intros I Hm. destruct (alive_lt _ _ Hm) as [Hlt Hf]. unfold libs_open. apply forallb_forall. intros lib Hin. apply Z.ltb_lt.
  rewrite (i_dl _ _ _ I lib). pose proof (zsum_ge (opens st lib) (r_next st) m (opens_nonneg st lib) Hlt) as G.
  unfold opens in G at 1. rewrite Hf in G. apply occ_in in Hin. unfold opened. lia.
Qed.

Lemma code_loaded P st k : Inv P (fun _ => 0) st -> alive st k = true -> kernel_code st k = true.
Proof.
  intros I Hk. unfold kernel_code. destruct (o_module (r_obj st k)) as [m|] eqn:M; auto. eapply libs_are_open; eauto.
  eapply Inv_held_alive; eauto. apply (keeps_in st k); auto. unfold owned. rewrite M. left; reflexivity.
Qed.

Definition kernel_obj (m : nat) : obj :=
  {| o_kind := KKernel; o_count := 1; o_freed := false; o_libs := []; o_module := Some m; o_fences := []; o_futures := []; o_lists := [] |}.

Lemma step_kernel h st d m found : J h st -> is_a st KDevice d = true -> is_a st KModule m = true -> goal h st (NewKernel d m found).
Proof.
  intros Jh Hd Ha. pose proof (j_inv _ _ Jh) as I. destruct (is_a_alive _ _ _ Ha) as [Hm Km]. destruct (alive_lt _ _ Hm) as [Hlt Hf].
  unfold goal. cbn [step]. rewrite Hd, Ha, (libs_are_open _ st m I Hm). cbn [need andb]. destruct found.
  2: { eexists _, _. split; [reflexivity|]. apply J_fail; auto; discriminate. }
  fold (kernel_obj m). set (N := r_next st). change (snd (create (kernel_obj m) st)) with N.
  assert (Nm : m <> N) by (subst N; lia).
  unfold ref_inc. rewrite alive_create by reflexivity. fold N. rewrite (proj2 (Nat.eqb_neq m N)) by auto. rewrite Hm.
  cbn [bind]. eexists _, _. split; [reflexivity|].
  rewrite create_obj. fold N. rewrite (proj2 (Nat.eqb_neq m N)) by auto.
  set (st' := set_obj _ _ _).
  (* the same state reached in the order: blank kernel, increment, attach *)
  assert (A0 : app_refs h N = 0) by (apply app_refs_new; auto).
  assert (I1 : Inv (upd (app_refs h) N 1) (fun _ => 0) (fst (create (blank KKernel) st))).
  { apply create_inv; [repeat split|reflexivity|reflexivity|cbn; congruence|lia|]. apply (Inv_D _ (fun _ => 0)); auto. }
  set (st1 := fst (create (blank KKernel) st)) in *.
  assert (A1 : alive st1 m = true). { subst st1. rewrite alive_create by reflexivity. rewrite Hm. destruct (Nat.eqb m (r_next st)); reflexivity. }
  destruct (ref_inc_inv _ _ st1 m I1 A1) as (st2 & E2 & I2 & S2).
  unfold ref_inc in E2. rewrite A1 in E2. injection E2 as E2.
  assert (A2 : alive st2 N = true).
  { eapply Inv_Ppos_alive; [exact I2|]. unfold upd. rewrite (proj2 (Nat.eqb_neq N m)), Nat.eqb_refl by auto. lia. }
  assert (ON : r_obj st2 N = blank KKernel).
  { rewrite <- E2, obj_set, (proj2 (Nat.eqb_neq N m)) by auto. subst st1. rewrite create_obj. fold N. rewrite Nat.eqb_refl. reflexivity. }
  assert (I3 : Inv (app_refs ((NewKernel d m true, Some N) :: h)) (fun _ => 0) (set_obj st2 N (kernel_obj m))).
  { eapply Inv_P; [|apply (attach_inv _ _ st2 N m (kernel_obj m) I2 A2)]; try (rewrite ON; reflexivity).
    - intros y. rewrite app_refs_some by reflexivity. cbn [keeper]. unfold upd. rewrite Nat.eqb_refl, (Nat.eqb_sym N y).
      destruct (Nat.eqb_spec y m) as [E|]; [subst y|].
      + rewrite (proj2 (Nat.eqb_neq m N)) by auto. lia.
      + destruct (Nat.eqb_spec y N) as [E|]; [subst y|]; lia.
    - unfold upd. rewrite Nat.eqb_refl. destruct (Nat.eqb m N); pose proof (i_pos _ _ _ I m); lia.
    - intros y. rewrite ON. unfold owned. cbn. rewrite (Nat.eqb_sym y m). unfold occ. cbn [count_occ].
      destruct (Nat.eq_dec m y) as [->|Ny]; [rewrite Nat.eqb_refl; reflexivity|rewrite (proj2 (Nat.eqb_neq m y)) by auto; reflexivity].
    - unfold typed. cbn [kernel_obj o_kind o_module o_fences o_futures o_lists o_libs In]. repeat split; intros; try tauto.
      + injection H as <-. destruct S2 as [N2 _]. rewrite <- N2. subst st1. cbn. lia.
      + injection H as <-. destruct S2 as [_ S2]. destruct (S2 m) as (<- & _). subst st1. rewrite create_obj.
        fold N. rewrite (proj2 (Nat.eqb_neq m N)) by auto. auto.
    - intros Hk. exfalso. apply Hk. destruct S2 as [_ S2]. destruct (S2 m) as (<- & _). subst st1. rewrite create_obj.
      fold N. rewrite (proj2 (Nat.eqb_neq m N)) by auto. auto. }
  constructor.
  - eapply (Inv_st _ _ (set_obj st2 N (kernel_obj m))); [| | |exact I3].
    + intros x. rewrite obj_set, <- E2, obj_set. subst st' st1. rewrite obj_set, !create_obj. fold N.
      destruct (Nat.eqb_spec x m) as [E|]; [subst x|].
      * rewrite (proj2 (Nat.eqb_neq m N)) by auto. unfold upd. fold N. rewrite (proj2 (Nat.eqb_neq m N)) by auto. reflexivity.
      * destruct (Nat.eqb x N); reflexivity.
    + rewrite <- E2. reflexivity.
    + intros l. rewrite <- E2. reflexivity.
  - intros k x Hi. apply is_kind_cons in Hi. subst st'. rewrite obj_set, create_obj. fold N.
    change (r_next (set_obj (fst (create (kernel_obj m) st)) m _)) with (S N). destruct Hi as [[Hx Hk]|Hi].
    + injection Hx as <-. injection Hk as <-. rewrite (proj2 (Nat.eqb_neq N m)), Nat.eqb_refl by auto. split; [lia|reflexivity].
    + destruct (j_kind _ _ Jh k x Hi) as [Hx Hk]. fold N in Hx. split; [lia|].
      destruct (Nat.eqb_spec x m) as [E|]; [subst x; exact Hk|]. rewrite (proj2 (Nat.eqb_neq x N)) by lia. exact Hk.
  - intros p x. rewrite holds_cons, <- (j_holds _ _ Jh). fold N. subst st'.
    change (r_next (set_obj (fst (create (kernel_obj m) st)) m _)) with (S N). rewrite obj_set, create_obj. fold N.
    destruct (Nat.eqb_spec p m) as [E|Npm]; [subst p|].
    + change (owned (with_count (r_obj st m) (o_count (r_obj st m) + 1))) with (owned (r_obj st m)). split.
      * intros [_ Hin]. right; right. split; [split; [subst N; lia|auto]|discriminate].
      * intros [[_ E]|[(d' & E & E')|[[_ Hin] _]]]; [discriminate|injection E' as E'; congruence|]. split; [subst N; lia|auto].
    + destruct (Nat.eqb_spec p N) as [E|NpN]; [subst p|].
      * unfold owned. cbn [kernel_obj o_module o_fences o_futures o_lists opt_list app In]. split.
        -- intros [_ [->|[]]]. right; left. exists d. auto.
        -- intros [[_ E]|[(d' & E & E')|[[Hp _] _]]]; [discriminate| |lia]. injection E as _ ->. split; [lia|auto].
      * split.
        -- intros [Hp Hin]. right; right. split; [split; [lia|auto]|discriminate].
        -- intros [[_ E]|[(d' & E & E')|[[Hp Hin] _]]]; [discriminate|injection E' as E'; congruence|]. split; [lia|auto].
  - intros x Hx Hxk. apply is_kind_cons. right. subst st'. change (r_next (set_obj (fst (create (kernel_obj m) st)) m _)) with (S N) in Hx.
    rewrite obj_set, create_obj in Hxk. fold N in Hxk. destruct (Nat.eqb_spec x m) as [E|Nx].
    + subst x. change (o_kind (r_obj st m) = KTaskQueue) in Hxk. congruence.
    + destruct (Nat.eqb_spec x N) as [E|NN]; [discriminate|]. apply (j_queue _ _ Jh); [fold N; lia|auto].
Qed.

(** *** All calls *)
Lemma step_ok h st o : J h st -> correct_use h o -> avoids h o -> goal h st o.
Proof.
  intros Jh [U C] V.
  assert (A : forall k x, In (k, x) (uses o) -> is_a st k x = true).
  { intros k x Hin. destruct (U k x Hin). eapply use_is_a; eauto. }
  assert (AL : forall k x, In (k, x) (uses o) -> alive st x = true /\ o_kind (r_obj st x) = k).
  { intros k x Hin. apply is_a_alive, A, Hin. }
  destruct o; cbn [uses In map opt_list] in A, AL; unfold goal.
  - eexists _, _; split; [reflexivity|]. apply J_blank; auto; discriminate.
  - eexists _, _; split; [reflexivity|]. apply J_blank; auto; discriminate.
  - cbn [step]. rewrite A by auto. eexists _, _; split; [reflexivity|]. apply J_blank; auto; discriminate.
  - cbn [step]. rewrite A by auto. eexists _, _; split; [reflexivity|]. apply J_blank; auto; discriminate.
  - cbn [step]. rewrite A by auto. eexists _, _; split; [reflexivity|]. apply J_blank; auto; discriminate.
  - apply step_load; auto.
  - apply step_load_options; auto.
  - destruct V.
  - apply step_kernel; auto.
  - cbn [step]. rewrite A by auto. eexists _, _; split; [reflexivity|]. apply J_blank; auto; discriminate.
  - cbn [step]. rewrite A by auto. eexists _, _; split; [reflexivity|]. apply J_blank; auto; discriminate.
  - (* command list *)
    cbn [step]. rewrite A by auto. cbn [need]. eexists _, _; split; [reflexivity|]. change (snd (create (blank KList) st)) with (r_next st).
    destruct (AL KQueue q ltac:(auto)) as [Hq Kq]. destruct (alive_lt _ _ Hq) as [Hlt Hf].
    apply J_keep; auto; try reflexivity; try discriminate.
    + intros y. unfold owned. cbn [o_module o_fences o_futures o_lists with_work]. rewrite !occ_app, occ_cons, occ_nil.
      rewrite (Nat.eqb_sym y). lia.
    + pose proof (typed_create st KList _ _ (i_typed _ _ _ (j_inv _ _ Jh) q Hlt)) as (T1 & T2 & T3 & T4 & T5).
      unfold typed. cbn [o_kind o_module o_fences o_futures o_lists o_libs with_work]. repeat (split; [assumption|]).
      split; [|assumption]. intros x Hx. apply in_app_or in Hx. destruct Hx as [Hx|[<-|[]]]; auto.
      split; [exact Kq|]. rewrite create_obj, Nat.eqb_refl. cbn. split; [lia|auto].
  - cbn [step]. rewrite !A by auto. cbn [need andb]. destruct (AL KList l ltac:(auto)) as [Hl Kl].
    destruct (J_future h st (ListCopy l v) l) as (st' & E & R); auto; try discriminate. rewrite E. eauto.
  - cbn [step]. rewrite !A by auto. cbn [need andb]. destruct (AL KList l ltac:(auto)) as [Hl Kl]. destruct fits.
    + destruct (J_future h st (ListCopyViews l v1 v2 true) l) as (st' & E & R); auto; try discriminate. rewrite E. eauto.
    + eexists _, _; split; [reflexivity|]. apply J_fail; auto; discriminate.
  - cbn [step]. rewrite !A by auto. destruct (AL KList l ltac:(auto)) as [Hl Kl]. destruct (AL KKernel k ltac:(auto)) as [Hk Kk].
    rewrite (code_loaded _ st k (j_inv _ _ Jh) Hk).
    assert (params_ok st params = true) as -> by (destruct params; cbn; auto; apply A; cbn; auto).
    cbn [need andb]. destruct (J_future h st (ListLaunch l k params) l) as (st' & E & R); auto; try discriminate. rewrite E. eauto.
  - (* submit *)
    cbn [step]. rewrite A by auto. cbn [need]. eexists _, _; split; [reflexivity|]. change (snd (create (blank KFence) st)) with (r_next st).
    destruct (AL KList l ltac:(auto)) as [Hq Kq]. destruct (alive_lt _ _ Hq) as [Hlt Hf].
    apply J_keep; auto; try reflexivity; try discriminate.
    + intros y. unfold owned. cbn [o_module o_fences o_futures o_lists with_work]. rewrite !occ_app, occ_cons, occ_nil.
      rewrite (Nat.eqb_sym y). lia.
    + pose proof (typed_create st KFence _ _ (i_typed _ _ _ (j_inv _ _ Jh) l Hlt)) as (T1 & T2 & T3 & T4 & T5).
      unfold typed. cbn [o_kind o_module o_fences o_futures o_lists o_libs with_work]. repeat (split; [assumption|]).
      split; [|split; [assumption|split; assumption]]. intros x Hx. apply in_app_or in Hx. destruct Hx as [Hx|[<-|[]]]; auto.
      split; [exact Kq|]. rewrite create_obj, Nat.eqb_refl. cbn. split; [lia|auto].
  - apply step_reset; auto.
  - cbn [step]. rewrite !A by auto. destruct (AL KTaskQueue q ltac:(auto)) as [Hl Kl]. destruct (AL KKernel k ltac:(auto)) as [Hk Kk].
    rewrite (code_loaded _ st k (j_inv _ _ Jh) Hk).
    assert (params_ok st params = true) as -> by (destruct params; cbn; auto; apply A; cbn; auto).
    cbn [need andb]. destruct (J_future h st (QueueLaunch q k params) q) as (st' & E & R); auto; try discriminate. rewrite E. eauto.
  - cbn [step]. rewrite !A by auto. eexists _, _; split; [reflexivity|]. apply J_fail; auto; discriminate.
  - cbn [step]. rewrite A by auto. destruct (AL KModule m ltac:(auto)) as [Hm _]. rewrite (libs_are_open _ st m (j_inv _ _ Jh) Hm).
    eexists _, _; split; [reflexivity|]. apply J_fail; auto; discriminate.
  - cbn [step]. rewrite A by auto. eexists _, _; split; [reflexivity|]. apply J_fail; auto; discriminate.
  - (* retain *)
    cbn [step]. pose proof (lives_alive h st Jh x C) as Hx.
    destruct (ref_inc_inv _ _ st x (j_inv _ _ Jh) Hx) as (st' & E & I' & S'). rewrite E. cbn [bind].
    eexists _, _; split; [reflexivity|]. apply (J_ext h st); auto; try discriminate.
    + apply same_ext; auto.
    + eapply Inv_P; [|exact I']. intros y. cbn [app_refs event_refs]. unfold upd. rewrite (Nat.eqb_sym x y).
      destruct (Nat.eqb_spec y x) as [E1|]; [subst y|]; lia.
    + destruct S' as [<- _]. intros; lia.
  - (* release *)
    cbn [step]. cbn [avoids] in V. pose proof (j_inv _ _ Jh) as I.
    assert (Hx : alive st x = true) by (eapply Inv_Ppos_alive; eauto). destruct (alive_lt _ _ Hx) as [Hlt Hf].
    destruct (release_inv _ st x I C) as (st' & E & I' & S').
    + intros K P1 f Hin. apply V; auto.
      * apply (j_queue _ _ Jh); auto.
      * apply (j_holds _ _ Jh). split; auto. unfold owned. rewrite !in_app_iff. auto.
    + intros K. destruct (Z.eq_dec (held st x) 0) as [|Hn]; auto. exfalso.
      assert (Hh : 0 < held st x) by (pose proof (held_nonneg st x); lia).
      apply zsum_pos in Hh; [|intros; apply keeps_nonneg]. destruct Hh as (p & Hp & Hk). unfold keeps in Hk.
      destruct (o_freed (r_obj st p)) eqn:Hfp; [lia|]. apply occ_in in Hk.
      destruct (i_typed _ _ _ I p Hp) as (A1 & B1 & C1 & D1 & _). unfold owned in Hk. rewrite !in_app_iff in Hk.
      destruct Hk as [Hk|[Hk|[Hk|Hk]]].
      * destruct (o_module (r_obj st p)) as [m|]; cbn in Hk; [|tauto]. destruct Hk as [->|[]]. destruct (A1 x eq_refl) as (_&_&?). congruence.
      * destruct (B1 x Hk) as (_&_&?). congruence.
      * destruct (C1 x Hk) as (_&_&?). congruence.
      * destruct (D1 x Hk) as (_&_&?). congruence.
    + rewrite E. cbn [bind]. eexists _, _; split; [reflexivity|]. apply (J_ext h st); auto; try discriminate.
      * apply same_ext; auto.
      * eapply Inv_P; [|exact I']. intros y. cbn [app_refs event_refs]. unfold upd. rewrite (Nat.eqb_sym x y).
        destruct (Nat.eqb_spec y x) as [E1|]; [subst y|]; lia.
      * destruct S' as [<- _]. intros; lia.
Qed.
