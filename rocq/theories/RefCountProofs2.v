(** Proofs about the reference counts of the runtime, part 2: the C API. *)
From Coq Require Import ZArith List Bool Lia Arith.
From Verif Require Import RefCountModel RefCountSpec RefCountProofs.
Import ListNotations.
Open Scope Z_scope.

Lemma kind_eqb_eq a b : kind_eqb a b = true <-> a = b.
Proof. destruct a, b; cbn; split; intros; congruence. Qed.

(** *** The history *)
Lemma holds_cons o r h p x : holds ((o, r) :: h) p x <->
  (r = Some x /\ keeper o = Some p) \/ (exists d, o = NewKernel d x true /\ r = Some p) \/ (holds h p x /\ o <> ListReset p).
Proof.
  split.
  - intros H. inversion H; subst; eauto 6.
  - intros [[-> K]|[(d & -> & ->)|[H N]]].
    + apply holds_new; auto.
    + apply holds_module.
    + apply holds_later; auto.
Qed.

Lemma is_kind_cons o r h k x : is_kind ((o, r) :: h) k x <-> (r = Some x /\ made o = Some k) \/ is_kind h k x.
Proof.
  unfold is_kind. split.
  - intros (q & [E|H] & M); [injection E as -> ->; auto|]. right. eauto.
  - intros [[-> M]|(q & H & M)]; eexists; split; eauto; cbn; auto.
Qed.

(** *** What links the state to the history *)
Record J (h : hist) (st : rt) : Prop := {
  j_inv : Inv (app_refs h) (fun _ => 0) st;
  j_kind : forall k x, is_kind h k x -> (x < r_next st)%nat /\ o_kind (r_obj st x) = k;
  j_holds : forall p x, (p < r_next st)%nat /\ In x (owned (r_obj st p)) <-> holds h p x;
  j_queue : forall x, (x < r_next st)%nat -> o_kind (r_obj st x) = KTaskQueue -> is_kind h KTaskQueue x }.

Lemma keeps_in st p x : alive st p = true -> In x (owned (r_obj st p)) -> 0 < held st x.
Proof.
  intros Hp Hin. destruct (alive_lt _ _ Hp) as [Hlt Hf]. pose proof (held_ge st x p Hlt) as H. unfold keeps in H.
  rewrite Hf in H. apply occ_in in Hin. lia.
Qed.

Lemma lives_alive h st : J h st -> forall x, lives h x -> alive st x = true.
Proof.
  intros [I K H Q0] x L. induction L as [x Hx|p x L IH Hh].
  - eapply Inv_Ppos_alive; eauto.
  - apply H in Hh. destruct Hh as [_ Hin]. eapply Inv_held_alive; eauto. eapply keeps_in; eauto.
Qed.

Lemma typed_rank st p x : typed st (o_kind (r_obj st p)) (r_obj st p) -> In x (owned (r_obj st p)) ->
  (rank (o_kind (r_obj st x)) < rank (o_kind (r_obj st p)))%nat.
Proof.
  intros (A & B & C & D & E) Hin. unfold owned in Hin. rewrite !in_app_iff in Hin.
  destruct Hin as [Hin|[Hin|[Hin|Hin]]].
  - destruct (o_module (r_obj st p)) as [m|] eqn:M; cbn in Hin; [|tauto]. destruct Hin as [->|[]].
    destruct (A x eq_refl) as (-> & _ & ->). cbn; lia.
  - destruct (B x Hin) as (-> & _ & ->). cbn; lia.
  - destruct (C x Hin) as ([->| ->] & _ & ->); cbn; lia.
  - destruct (D x Hin) as (-> & _ & ->). cbn; lia.
Qed.

Lemma alive_lives h st : J h st -> forall x, alive st x = true -> lives h x.
Proof.
  intros [I K H Q0]. enough (G : forall n x, (2 - rank (o_kind (r_obj st x)) <= n)%nat -> alive st x = true -> lives h x) by eauto.
  induction n as [|n IH]; intros x Hn Hx; destruct (i_alive _ _ _ I x Hx) as [Hc Hpos];
    destruct (Z.ltb_spec 0 (app_refs h x)) as [Ha|Ha]; try (apply lives_app; exact Ha).
  all: assert (Hh : 0 < held st x) by lia.
  all: apply zsum_pos in Hh; [|intros; apply keeps_nonneg]; destruct Hh as (p & Hp & Hk); unfold keeps in Hk.
  all: destruct (o_freed (r_obj st p)) eqn:Hf; [lia|]; apply occ_in in Hk.
  all: pose proof (typed_rank st p x (i_typed _ _ _ I p Hp) Hk) as Hr.
  - exfalso. assert (rank (o_kind (r_obj st p)) <= 2)%nat by (destruct (o_kind (r_obj st p)); cbn; lia). lia.
  - apply (lives_held h p); [|apply H; auto]. apply IH; [lia|]. apply alive_intro; auto.
Qed.

Lemma use_is_a h st k x : J h st -> lives h x -> is_kind h k x -> is_a st k x = true.
Proof.
  intros Jh L K. unfold is_a. rewrite (lives_alive h st Jh x L). destruct (j_kind _ _ Jh k x K) as [_ ->].
  apply kind_eqb_eq. reflexivity.
Qed.

Lemma is_a_alive st k x : is_a st k x = true -> alive st x = true /\ o_kind (r_obj st x) = k.
Proof. unfold is_a. rewrite andb_true_iff, kind_eqb_eq. auto. Qed.

(** *** More states *)
Definition ext (st st' : rt) : Prop :=
  (r_next st <= r_next st')%nat /\
  (forall x, (x < r_next st)%nat -> o_kind (r_obj st x) = o_kind (r_obj st' x) /\ owned (r_obj st x) = owned (r_obj st' x)) /\
  (forall x, (r_next st <= x < r_next st')%nat -> owned (r_obj st' x) = []).

Lemma ext_refl st : ext st st.
Proof. repeat split; auto; lia. Qed.
Lemma ext_trans a b c : ext a b -> ext b c -> ext a c.
Proof.
  intros (N1 & O1 & F1) (N2 & O2 & F2). split; [lia|]. split.
  - intros x Hx. destruct (O1 x Hx), (O2 x ltac:(lia)). split; congruence.
  - intros x Hx. destruct (Nat.lt_ge_cases x (r_next b)).
    + destruct (O2 x H) as [_ <-]. apply F1; lia.
    + apply F2; lia.
Qed.
Lemma same_ext a b : same a b -> ext a b.
Proof.
  intros S. pose proof S as [N H]. split; [lia|]. split.
  - intros x _. split; [destruct (H x) as (K & _); auto|apply same_owned; auto].
  - intros; lia.
Qed.

Lemma create_obj o st x : r_obj (fst (create o st)) x = if Nat.eqb x (r_next st) then o else r_obj st x.
Proof. reflexivity. Qed.

Lemma create_ext o st : owned o = [] -> ext st (fst (create o st)).
Proof.
  intros Ho. split; [cbn; lia|]. split.
  - intros x Hx. rewrite create_obj. rewrite (proj2 (Nat.eqb_neq x (r_next st))) by lia. auto.
  - intros x Hx. cbn in Hx. rewrite create_obj. rewrite (proj2 (Nat.eqb_eq x (r_next st))) by lia. auto.
Qed.

Lemma held_create o st y : o_freed o = false -> held (fst (create o st)) y = held st y + occ y (owned o).
Proof.
  intros Hf. unfold held. change (r_next (fst (create o st))) with (S (r_next st)). cbn [zsum]. f_equal.
  - apply zsum_ext. intros i Hi. unfold keeps. rewrite create_obj, (proj2 (Nat.eqb_neq i (r_next st))) by lia. auto.
  - unfold keeps. rewrite create_obj, Nat.eqb_refl, Hf. reflexivity.
Qed.

Lemma opened_create o st y : o_freed o = false -> opened (fst (create o st)) y = opened st y + occ y (o_libs o).
Proof.
  intros Hf. unfold opened. change (r_next (fst (create o st))) with (S (r_next st)). cbn [zsum]. f_equal.
  - apply zsum_ext. intros i Hi. unfold opens. rewrite create_obj, (proj2 (Nat.eqb_neq i (r_next st))) by lia. auto.
  - unfold opens. rewrite create_obj, Nat.eqb_refl, Hf. reflexivity.
Qed.

Lemma alive_create o st x : o_freed o = false -> alive (fst (create o st)) x = if Nat.eqb x (r_next st) then true else alive st x.
Proof.
  intros Hf. unfold alive. rewrite create_obj. change (r_next (fst (create o st))) with (S (r_next st)).
  destruct (Nat.eqb_spec x (r_next st)) as [E_|N]; [subst x|].
  - rewrite Hf, (proj2 (Nat.ltb_lt _ _)) by lia. reflexivity.
  - destruct (Nat.ltb_spec x (r_next st)); destruct (Nat.ltb_spec x (S (r_next st))); try lia; reflexivity.
Qed.

Lemma next_dead st : alive st (r_next st) = false.
Proof. unfold alive. rewrite Nat.ltb_irrefl. reflexivity. Qed.

Definition plain (o : obj) : Prop := o_module o = None /\ o_fences o = [] /\ o_futures o = [] /\ o_lists o = [].
Lemma plain_owned o : plain o -> owned o = [].
Proof. intros (A & B & C & D). unfold owned. rewrite A, B, C, D. reflexivity. Qed.

Lemma create_inv P D st o : plain o -> o_count o = 1 -> o_freed o = false -> (o_libs o <> [] -> o_kind o = KModule) ->
  (forall l, 0 <= D l) ->
  Inv P (fun l => D l + occ l (o_libs o)) st -> Inv (upd P (r_next st) 1) D (fst (create o st)).
Proof.
  intros Hp Hc Hf Hl HD I. pose proof (plain_owned o Hp) as Ho. destruct (i_dead _ _ _ I _ (next_dead st)) as [P0 H0].
  assert (Hh : forall y, held (fst (create o st)) y = held st y).
  { intros y. rewrite held_create, Ho, occ_nil by auto. lia. }
  constructor.
  - intros x Hx. rewrite Hh, create_obj. rewrite alive_create in Hx by auto. unfold upd.
    destruct (Nat.eqb_spec x (r_next st)) as [E_|N]; [subst x; lia|]. apply (i_alive _ _ _ I x Hx).
  - intros x Hx. rewrite Hh. rewrite alive_create in Hx by auto. unfold upd.
    destruct (Nat.eqb_spec x (r_next st)) as [E_|N]; [subst x; discriminate|]. apply (i_dead _ _ _ I x Hx).
  - intros x. unfold upd. pose proof (i_pos _ _ _ I x). destruct (Nat.eqb x (r_next st)); lia.
  - intros p Hpn. rewrite create_obj. destruct (Nat.eqb_spec p (r_next st)) as [E_|N]; [subst p|].
    + destruct Hp as (A & B & C & E). unfold typed. rewrite A, B, C, E. cbn [In]. repeat split; intros; try discriminate; try tauto.
    + apply (typed_kinds st); [cbn; lia| |].
      * intros x Hx. rewrite create_obj, (proj2 (Nat.eqb_neq x (r_next st))) by lia. reflexivity.
      * apply (i_typed _ _ _ I). cbn in Hpn. lia.
  - intros x Hx Hk. rewrite Hh. rewrite create_obj in Hk. destruct (Nat.eqb_spec x (r_next st)) as [E_|N]; [subst x; lia|].
    apply (i_once _ _ _ I); auto. cbn in Hx. lia.
  - intros l. rewrite opened_create by auto. change (r_dl (fst (create o st)) l) with (r_dl st l).
    rewrite (i_dl _ _ _ I l). lia.
  - exact HD.
Qed.

Lemma open_inv P st lib : Inv P (fun _ => 0) st -> Inv P (fun l => 0 + occ l [lib]) (dl_open lib st).
Proof.
  intros [A B C T O L M]. constructor; try assumption.
  - intros l. cbn [dl_open r_dl]. unfold upd. rewrite occ_cons, occ_nil, (Nat.eqb_sym lib l). specialize (L l).
    change (opened (dl_open lib st) l) with (opened st l). destruct (Nat.eqb_spec l lib) as [E_|N]; [subst l|]; lia.
  - intros l. pose proof (occ_nonneg l [lib]). lia.
Qed.

Lemma Inv_st P D a b : (forall x, r_obj a x = r_obj b x) -> r_next a = r_next b -> (forall l, r_dl a l = r_dl b l) ->
  Inv P D a -> Inv P D b.
Proof.
  intros E N L I.
  assert (Hh : forall y, held a y = held b y).
  { intros y. unfold held. rewrite N. apply zsum_ext. intros i _. unfold keeps. rewrite E. reflexivity. }
  assert (Ho : forall y, opened a y = opened b y).
  { intros y. unfold opened. rewrite N. apply zsum_ext. intros i _. unfold opens. rewrite E. reflexivity. }
  assert (Ha : forall x, alive a x = alive b x) by (intros; unfold alive; rewrite E, N; reflexivity).
  destruct I as [A B C T O M Q]. constructor; auto.
  - intros x. rewrite <- Ha, <- E, <- Hh. apply A.
  - intros x. rewrite <- Ha, <- Hh. apply B.
  - intros p. rewrite <- N, <- E. intros Hp. apply (typed_kinds a); [lia| |apply T; auto]. intros x _. rewrite E. reflexivity.
  - intros x. rewrite <- N, <- E, <- Hh. apply O.
  - intros l. rewrite <- L, <- Ho. apply M.
Qed.

(** giving an object [p] one more reference, to [x] *)
Lemma attach_inv P D st p x o : Inv P D st -> alive st p = true -> 0 < P x ->
  o_kind o = o_kind (r_obj st p) -> o_count o = o_count (r_obj st p) -> o_freed o = o_freed (r_obj st p) ->
  o_libs o = o_libs (r_obj st p) ->
  (forall y, occ y (owned o) = occ y (owned (r_obj st p)) + (if Nat.eqb y x then 1 else 0)) ->
  typed st (o_kind o) o -> (o_kind (r_obj st x) <> KModule -> held st x = 0) ->
  Inv (upd P x (P x - 1)) D (set_obj st p o).
Proof.
  intros I Hp HP Hk Hc Hfr Hl Hocc Ht Hx. destruct (alive_lt _ _ Hp) as [Hlt Hf]. rewrite Hf in Hfr.
  assert (Hh : forall y, held (set_obj st p o) y = held st y + (if Nat.eqb y x then 1 else 0)).
  { intros y. rewrite held_set by auto. unfold keeps. rewrite Hf, Hfr, Hocc. lia. }
  assert (Ha : forall y, alive (set_obj st p o) y = alive st y).
  { intros y. rewrite alive_set. destruct (Nat.eqb_spec y p) as [E_|N]; [subst y|]; auto. unfold alive. rewrite Hf, Hfr. reflexivity. }
  assert (Hkk : forall y, o_kind (r_obj (set_obj st p o) y) = o_kind (r_obj st y)).
  { intros y. rewrite obj_set. destruct (Nat.eqb_spec y p) as [E_|N]; [subst y|]; auto. }
  constructor.
  - intros y Hy. rewrite Ha in Hy. rewrite Hh. destruct (i_alive _ _ _ I y Hy) as [E Epos].
    assert (o_count (r_obj (set_obj st p o) y) = o_count (r_obj st y)) as ->.
    { rewrite obj_set. destruct (Nat.eqb_spec y p) as [E_|N]; [subst y|]; auto. }
    unfold upd. destruct (Nat.eqb_spec y x) as [E_|N]; [subst y|]; lia.
  - intros y Hy. rewrite Ha in Hy. rewrite Hh. destruct (i_dead _ _ _ I y Hy). unfold upd.
    destruct (Nat.eqb_spec y x) as [E_|N]; [subst y|]; lia.
  - intros y. unfold upd. pose proof (i_pos _ _ _ I y). destruct (Nat.eqb y x); lia.
  - intros q Hq. rewrite Hkk. rewrite obj_set. destruct (Nat.eqb_spec q p) as [E_|N]; [subst q|].
    + rewrite <- Hk. apply (typed_kinds st); auto.
    + apply (typed_kinds st); auto. apply (i_typed _ _ _ I q Hq).
  - intros y Hy Hky. rewrite Hkk in Hky. rewrite Hh. destruct (Nat.eqb_spec y x) as [E_|N]; [subst y|].
    + rewrite Hx by auto. lia.
    + rewrite Z.add_0_r. apply (i_once _ _ _ I); auto.
  - intros l. rewrite opened_set by auto. unfold opens. rewrite Hf, Hfr, Hl. cbn [set_obj r_dl]. rewrite (i_dl _ _ _ I l). lia.
  - apply (i_dpos _ _ _ I).
Qed.

(** *** Calls that change nothing but counters and make plain objects *)
Lemma J_ext h st o r st' : J h st -> ext st st' -> Inv (app_refs ((o, r) :: h)) (fun _ => 0) st' ->
  keeper o = None -> (forall d m, o <> NewKernel d m true) -> (forall l, o <> ListReset l) ->
  (forall x k, r = Some x -> made o = Some k -> (x < r_next st')%nat /\ o_kind (r_obj st' x) = k) ->
  (forall x, (r_next st <= x < r_next st')%nat -> o_kind (r_obj st' x) = KTaskQueue -> r = Some x /\ made o = Some KTaskQueue) ->
  J ((o, r) :: h) st'.
Proof.
  intros [I K H Q0] (N & O & F) I' Hk Hm Hr Hx Hq. constructor; auto.
  - intros k x Hi. apply is_kind_cons in Hi. destruct Hi as [[-> M]|Hi]; [eauto|].
    destruct (K k x Hi) as [Hlt Hkk]. destruct (O x Hlt) as [<- _]. split; [lia|auto].
  - intros p x. rewrite holds_cons, <- H. split.
    + intros [Hp Hin]. right; right. split; [|auto]. destruct (Nat.lt_ge_cases p (r_next st)) as [Hl|Hl].
      * destruct (O p Hl) as [_ E]. rewrite E. auto.
      * rewrite F in Hin by lia. destruct Hin.
    + intros [[_ Hc]|[(d & -> & _)|[[Hp Hin] _]]]; [congruence|destruct (Hm d x eq_refl)|].
      destruct (O p Hp) as [_ <-]. split; [lia|auto].
  - intros x Hxn Hxk. apply is_kind_cons. destruct (Nat.lt_ge_cases x (r_next st)) as [Hl|Hl]; [|left; apply Hq; auto].
    right. destruct (O x Hl) as [E _]. apply Q0; congruence.
Qed.

Definition quiet (o : op) : bool := match o with Retain _ | Release _ => false | _ => true end.

Lemma app_refs_none o h x : quiet o = true -> app_refs ((o, None) :: h) x = app_refs h x.
Proof. intros. destruct o; cbn in *; try lia; discriminate. Qed.

Lemma app_refs_some o y h x : quiet o = true ->
  app_refs ((o, Some y) :: h) x = (if Nat.eqb y x then match keeper o with None => 1 | Some _ => 0 end else 0) + app_refs h x.
Proof. intros. destruct o; cbn [app_refs event_refs keeper]; try reflexivity; discriminate. Qed.

Lemma app_refs_new h st : J h st -> app_refs h (r_next st) = 0.
Proof. intros [I _ _]. apply (i_dead _ _ _ I), next_dead. Qed.

Lemma J_quiet h st o : J h st -> quiet o = true -> keeper o = None -> (forall d m, o <> NewKernel d m true) -> (forall l, o <> ListReset l) ->
  J ((o, None) :: h) st.
Proof.
  intros Jh Q K M R. apply (J_ext h st); auto.
  - apply ext_refl.
  - apply (Inv_P (app_refs h)); [|apply Jh]. intros; symmetry; apply app_refs_none; auto.
  - discriminate.
  - intros; lia.
Qed.

(** a call that fails after checking: also one that could have kept a result *)
Lemma J_fail h st o : J h st -> quiet o = true -> (forall l, o <> ListReset l) -> J ((o, None) :: h) st.
Proof.
  intros Jh Q R. destruct Jh as [I K H Q0]. constructor.
  - apply (Inv_P (app_refs h)); auto. intros; symmetry; apply app_refs_none; auto.
  - intros k x Hi. apply is_kind_cons in Hi. destruct Hi as [[E _]|Hi]; [discriminate|auto].
  - intros p x. rewrite H, holds_cons. split; auto.
    intros [[E _]|[(d & _ & E)|[Hh _]]]; auto; discriminate.
  - intros x Hx Hk. apply is_kind_cons. right. auto.
Qed.

Lemma J_new h st st1 o obj : J h st -> quiet o = true -> keeper o = None -> (forall d m, o <> NewKernel d m true) -> (forall l, o <> ListReset l) ->
  made o = Some (o_kind obj) -> plain obj -> o_count obj = 1 -> o_freed obj = false -> (o_libs obj <> [] -> o_kind obj = KModule) ->
  r_next st1 = r_next st -> (forall x, r_obj st1 x = r_obj st x) ->
  Inv (app_refs h) (fun l => 0 + occ l (o_libs obj)) st1 ->
  J ((o, Some (r_next st1)) :: h) (fst (create obj st1)).
Proof.
  intros Jh Q K M R Hm Hp Hc Hf Hl N E I. apply (J_ext h st); auto.
  - destruct (create_ext obj st1 (plain_owned obj Hp)) as (A & B & C). rewrite N in A, B, C. split; [exact A|]. split.
    + intros x Hx. rewrite <- E. apply B; auto.
    + exact C.
  - apply (Inv_P (upd (app_refs h) (r_next st1) 1)).
    + intros x. rewrite app_refs_some, K by auto. unfold upd. rewrite (Nat.eqb_sym (r_next st1) x).
      destruct (Nat.eqb_spec x (r_next st1)) as [E_|]; [subst x|lia]. rewrite N. rewrite (app_refs_new h st Jh). reflexivity.
    + apply create_inv; auto; lia.
  - intros x k Hx Hk. injection Hx as <-. rewrite create_obj, Nat.eqb_refl. rewrite Hm in Hk. injection Hk as <-.
    cbn. split; [lia|auto].
  - intros x Hx Hk. cbn in Hx. assert (x = r_next st1) by lia. subst x. rewrite create_obj, Nat.eqb_refl in Hk. split; congruence.
Qed.

(** the common case: a blank object *)
Lemma J_blank h st o k : J h st -> quiet o = true -> keeper o = None -> (forall d m, o <> NewKernel d m true) -> (forall l, o <> ListReset l) ->
  made o = Some k -> J ((o, Some (r_next st)) :: h) (fst (create (blank k) st)).
Proof.
  intros Jh Q K M R Hm. apply (J_new h st); auto; try (cbn; congruence).
  - repeat split.
  - apply (Inv_D _ (fun _ => 0)); [|apply Jh]. intros; cbn [blank o_libs]. rewrite occ_nil. lia.
Qed.

(** *** Objects kept by others *)
Lemma J_keep h st o k p ob : J h st -> quiet o = true -> keeper o = Some p -> (forall d m, o <> NewKernel d m true) -> (forall l, o <> ListReset l) ->
  made o = Some k -> k <> KModule -> alive st p = true ->
  o_kind ob = o_kind (r_obj st p) -> o_count ob = o_count (r_obj st p) -> o_freed ob = o_freed (r_obj st p) ->
  o_libs ob = o_libs (r_obj st p) ->
  (forall y, occ y (owned ob) = occ y (owned (r_obj st p)) + (if Nat.eqb y (r_next st) then 1 else 0)) ->
  typed (fst (create (blank k) st)) (o_kind ob) ob ->
  J ((o, Some (r_next st)) :: h) (set_obj (fst (create (blank k) st)) p ob).
Proof.
  intros Jh Q Hk M R Hm Nk Hp E1 E2 E3 E4 Hocc Ht. destruct (alive_lt _ _ Hp) as [Hlt Hf].
  set (st1 := fst (create (blank k) st)).
  assert (Np : r_obj st1 p = r_obj st p).
  { subst st1. rewrite create_obj, (proj2 (Nat.eqb_neq p (r_next st))) by lia. reflexivity. }
  assert (I1 : Inv (upd (app_refs h) (r_next st) 1) (fun _ => 0) st1).
  { apply create_inv; auto; try (cbn; congruence); try lia. { repeat split. }
    apply (Inv_D _ (fun _ => 0)); [|apply Jh]. intros; cbn [blank o_libs]. rewrite occ_nil. lia. }
  pose proof (app_refs_new h st Jh) as A0.
  constructor.
  - apply (Inv_P (upd (upd (app_refs h) (r_next st) 1) (r_next st) (upd (app_refs h) (r_next st) 1 (r_next st) - 1))).
    + intros x. rewrite app_refs_some, Hk by auto. unfold upd. rewrite (Nat.eqb_sym (r_next st) x), Nat.eqb_refl.
      destruct (Nat.eqb_spec x (r_next st)) as [E_|]; [subst x|]; lia.
    + apply attach_inv; auto; try (rewrite Np; auto).
      * subst st1. rewrite alive_create by reflexivity. rewrite Hp. destruct (Nat.eqb p (r_next st)); reflexivity.
      * unfold upd. rewrite Nat.eqb_refl. lia.
      * intros _. subst st1. rewrite held_create by reflexivity.
        destruct (i_dead _ _ _ (j_inv _ _ Jh) _ (next_dead st)) as [_ ->]. reflexivity.
  - intros k' x Hi. apply is_kind_cons in Hi. rewrite obj_set. destruct Hi as [[Hx Hmk]|Hi].
    + injection Hx as <-. rewrite Hm in Hmk. injection Hmk as <-.
      rewrite (proj2 (Nat.eqb_neq (r_next st) p)) by lia. subst st1. rewrite create_obj, Nat.eqb_refl. cbn. split; [lia|auto].
    + destruct (j_kind _ _ Jh k' x Hi) as [Hxl Hxk]. split; [cbn; lia|].
      destruct (Nat.eqb_spec x p) as [E_|]; [subst x; congruence|]. subst st1. rewrite create_obj.
      rewrite (proj2 (Nat.eqb_neq x (r_next st))) by lia. auto.
  - intros q x. rewrite holds_cons, obj_set. change (r_next (set_obj st1 p ob)) with (S (r_next st)).
    rewrite <- (j_holds _ _ Jh). split.
    + intros [Hq Hin]. destruct (Nat.eqb_spec q p) as [E_|Nq]; [subst q|].
      * apply occ_in in Hin. rewrite Hocc in Hin. destruct (Nat.eqb_spec x (r_next st)) as [E_|Nx]; [subst x; left; auto|].
        right; right. rewrite occ_in. split; [split; [lia|]|auto]. lia.
      * subst st1. rewrite create_obj in Hin. destruct (Nat.eqb_spec q (r_next st)); [destruct Hin|].
        right; right. split; [split; [lia|auto]|auto].
    + intros [[Hx Hq]|[(d & -> & _)|[[Hq Hin] _]]].
      * injection Hx as <-. rewrite Hk in Hq. injection Hq as <-. rewrite Nat.eqb_refl. split; [lia|].
        apply occ_in. rewrite Hocc, Nat.eqb_refl. pose proof (occ_nonneg (r_next st) (owned (r_obj st p))). lia.
      * destruct (M d x eq_refl).
      * split; [lia|]. destruct (Nat.eqb_spec q p) as [E_|Nq]; [subst q|].
        -- apply occ_in. rewrite Hocc. apply occ_in in Hin. destruct (Nat.eqb x (r_next st)); lia.
        -- subst st1. rewrite create_obj, (proj2 (Nat.eqb_neq q (r_next st))) by lia. auto.
  - intros x Hx Hxk. apply is_kind_cons. rewrite obj_set in Hxk. change (r_next (set_obj st1 p ob)) with (S (r_next st)) in Hx.
    destruct (Nat.eqb_spec x p) as [E_|Nx]; [subst x; right; apply (j_queue _ _ Jh); [lia|congruence]|].
    subst st1. rewrite create_obj in Hxk. destruct (Nat.eqb_spec x (r_next st)) as [E_|Nn].
    + left. subst x. split; auto. rewrite Hm. f_equal. exact Hxk.
    + right. apply (j_queue _ _ Jh); [lia|auto].
Qed.

Lemma typed_create st k0 k o : typed st k o -> typed (fst (create (blank k0) st)) k o.
Proof.
  apply typed_kinds; [cbn; lia|]. intros x Hx. rewrite create_obj, (proj2 (Nat.eqb_neq x (r_next st))) by lia. reflexivity.
Qed.

Lemma J_future h st o p : J h st -> quiet o = true -> keeper o = Some p -> (forall d m, o <> NewKernel d m true) -> (forall l, o <> ListReset l) ->
  made o = Some KFuture -> alive st p = true -> o_kind (r_obj st p) = KList \/ o_kind (r_obj st p) = KTaskQueue ->
  exists st', add_future st p = Ok (st', Some (r_next st)) /\ J ((o, Some (r_next st)) :: h) st'.
Proof.
  intros Jh Q Hk M R Hm Hp Kp. eexists; split; [reflexivity|]. destruct (alive_lt _ _ Hp) as [Hlt Hf].
  apply J_keep; auto; try reflexivity; try discriminate.
  - intros y. unfold owned. cbn [o_module o_fences o_futures o_lists with_work]. rewrite !occ_app, occ_cons, occ_nil.
    change (snd (create (blank KFuture) st)) with (r_next st). rewrite (Nat.eqb_sym y). lia.
  - pose proof (typed_create st KFuture _ _ (i_typed _ _ _ (j_inv _ _ Jh) p Hlt)) as (A & B & C & D & E).
    unfold typed. cbn [o_kind o_module o_fences o_futures o_lists o_libs with_work]. repeat (split; [assumption|]).
    split; [|split; assumption]. intros x Hx. apply in_app_or in Hx. destruct Hx as [Hx|[<-|[]]]; auto.
    split; [exact Kp|]. change (snd (create (blank KFuture) st)) with (r_next st). rewrite create_obj, Nat.eqb_refl. cbn. split; [lia|auto].
Qed.
