(** Proofs about the reference counts of the runtime. *)
From Coq Require Import ZArith List Bool Lia Arith.
From Verif Require Import RefCountModel RefCountSpec.
Import ListNotations.
Open Scope Z_scope.

(** *** Sums *)
Fixpoint zsum (f : nat -> Z) (n : nat) : Z := match n with O => 0 | S n => zsum f n + f n end.

Lemma zsum_ext : forall f g n, (forall i, (i < n)%nat -> f i = g i) -> zsum f n = zsum g n.
Proof. induction n; intros H; cbn; auto. rewrite IHn, H; auto. Qed.

Lemma zsum_change : forall f g n x, (x < n)%nat -> (forall i, (i < n)%nat -> i <> x -> f i = g i) ->
  zsum g n = zsum f n - f x + g x.
Proof.
  induction n; intros x Hx H; [lia|]. cbn. destruct (Nat.eq_dec x n) as [->|N].
  - rewrite (zsum_ext g f n); [lia|]. intros; symmetry; apply H; lia.
  - rewrite (IHn x); [|lia|intros; apply H; lia]. rewrite (H n); lia.
Qed.

Lemma zsum_nonneg : forall f n, (forall i, 0 <= f i) -> 0 <= zsum f n.
Proof. induction n; intros; cbn; [lia|]. pose proof (H n). specialize (IHn H). lia. Qed.

Lemma zsum_ge : forall f n x, (forall i, 0 <= f i) -> (x < n)%nat -> f x <= zsum f n.
Proof.
  induction n; intros x H Hx; [lia|]. cbn. destruct (Nat.eq_dec x n) as [->|N].
  - pose proof (zsum_nonneg f n H). lia.
  - specialize (IHn x H ltac:(lia)). pose proof (H n). lia.
Qed.

Lemma zsum_pos : forall f n, (forall i, 0 <= f i) -> 0 < zsum f n -> exists x, (x < n)%nat /\ 0 < f x.
Proof.
  induction n; intros H Hs; cbn in Hs; [lia|].
  destruct (Z.ltb_spec 0 (f n)). { exists n; split; auto. }
  destruct IHn as (x & Hx & Hp); auto. { pose proof (H n); lia. } exists x; split; auto; lia.
Qed.

Lemma zsum_zero : forall f n, (forall i, (i < n)%nat -> f i = 0) -> zsum f n = 0.
Proof. induction n; intros H; cbn; auto. rewrite IHn, H; auto. Qed.

(** *** References kept by objects *)
Definition occ (x : nat) (l : list nat) : Z := Z.of_nat (count_occ Nat.eq_dec l x).
Definition owned (o : obj) : list nat := opt_list (o_module o) ++ o_fences o ++ o_futures o ++ o_lists o.

Lemma occ_nonneg x l : 0 <= occ x l.
Proof. unfold occ; lia. Qed.
Lemma occ_nil x : occ x [] = 0.
Proof. reflexivity. Qed.
Lemma occ_app x a b : occ x (a ++ b) = occ x a + occ x b.
Proof. unfold occ. rewrite count_occ_app. lia. Qed.
Lemma occ_cons x y l : occ x (y :: l) = (if Nat.eqb y x then 1 else 0) + occ x l.
Proof.
  unfold occ. cbn [count_occ]. destruct (Nat.eq_dec y x) as [->|N].
  - rewrite Nat.eqb_refl. lia.
  - rewrite (proj2 (Nat.eqb_neq y x)); auto.
Qed.
Lemma occ_in x l : In x l <-> 0 < occ x l.
Proof. unfold occ. rewrite (count_occ_In Nat.eq_dec). lia. Qed.
Lemma occ_notin x l : ~ In x l -> occ x l = 0.
Proof. intros H. pose proof (occ_nonneg x l). rewrite occ_in in H. lia. Qed.

Definition keeps (st : rt) (y p : nat) : Z := if o_freed (r_obj st p) then 0 else occ y (owned (r_obj st p)).
Definition held (st : rt) (y : nat) : Z := zsum (keeps st y) (r_next st).
Definition opens (st : rt) (lib p : nat) : Z := if o_freed (r_obj st p) then 0 else occ lib (o_libs (r_obj st p)).
Definition opened (st : rt) (lib : nat) : Z := zsum (opens st lib) (r_next st).

Lemma keeps_nonneg st y p : 0 <= keeps st y p.
Proof. unfold keeps. destruct (o_freed _); [lia|apply occ_nonneg]. Qed.
Lemma opens_nonneg st y p : 0 <= opens st y p.
Proof. unfold opens. destruct (o_freed _); [lia|apply occ_nonneg]. Qed.
Lemma held_nonneg st y : 0 <= held st y.
Proof. apply zsum_nonneg; intros; apply keeps_nonneg. Qed.
Lemma opened_nonneg st y : 0 <= opened st y.
Proof. apply zsum_nonneg; intros; apply opens_nonneg. Qed.
Lemma held_ge st y p : (p < r_next st)%nat -> keeps st y p <= held st y.
Proof. intros. apply (zsum_ge (keeps st y)); auto. intros; apply keeps_nonneg. Qed.

(** members of the right class, of objects that were made *)
Definition typed (st : rt) (k : kind) (o : obj) : Prop :=
  (forall m, o_module o = Some m -> k = KKernel /\ (m < r_next st)%nat /\ o_kind (r_obj st m) = KModule) /\
  (forall x, In x (o_fences o) -> k = KList /\ (x < r_next st)%nat /\ o_kind (r_obj st x) = KFence) /\
  (forall x, In x (o_futures o) -> (k = KList \/ k = KTaskQueue) /\ (x < r_next st)%nat /\ o_kind (r_obj st x) = KFuture) /\
  (forall x, In x (o_lists o) -> k = KQueue /\ (x < r_next st)%nat /\ o_kind (r_obj st x) = KList) /\
  (o_libs o <> [] -> k = KModule).

Record Inv (P D : nat -> Z) (st : rt) : Prop := {
  i_alive : forall x, alive st x = true -> o_count (r_obj st x) = P x + held st x /\ 0 < o_count (r_obj st x);
  i_dead : forall x, alive st x = false -> P x = 0 /\ held st x = 0;
  i_pos : forall x, 0 <= P x;
  i_typed : forall p, (p < r_next st)%nat -> typed st (o_kind (r_obj st p)) (r_obj st p);
  i_once : forall x, (x < r_next st)%nat -> o_kind (r_obj st x) <> KModule -> held st x <= 1;
  i_dl : forall lib, r_dl st lib = D lib + opened st lib;
  i_dpos : forall lib, 0 <= D lib }.

Lemma Inv_P P P' D st : (forall x, P x = P' x) -> Inv P D st -> Inv P' D st.
Proof.
  intros E [A B C T O L M]. constructor; auto.
  - intros x Hx. rewrite <- E. auto.
  - intros x Hx. rewrite <- E. auto.
  - intros x. rewrite <- E. auto.
Qed.

Lemma Inv_D P D D' st : (forall x, D x = D' x) -> Inv P D st -> Inv P D' st.
Proof.
  intros E [A B C T O L M]. constructor; auto.
  - intros x. rewrite <- E. auto.
  - intros x. rewrite <- E. auto.
Qed.

(** same objects up to counters and freeing *)
Definition same_obj (a b : obj) : Prop :=
  o_kind a = o_kind b /\ o_libs a = o_libs b /\ o_module a = o_module b /\ o_fences a = o_fences b /\
  o_futures a = o_futures b /\ o_lists a = o_lists b /\ (o_freed a = true -> o_freed b = true).
Definition same (a b : rt) : Prop := r_next a = r_next b /\ forall x, same_obj (r_obj a x) (r_obj b x).

Lemma same_refl st : same st st.
Proof. split; [reflexivity|]. intros; repeat split; auto. Qed.
Lemma same_trans a b c : same a b -> same b c -> same a c.
Proof.
  intros [N1 H1] [N2 H2]. split; [congruence|]. intros x.
  destruct (H1 x) as (?&?&?&?&?&?&?), (H2 x) as (?&?&?&?&?&?&?). repeat split; try congruence; auto.
Qed.

Lemma same_owned a b x : same a b -> owned (r_obj a x) = owned (r_obj b x).
Proof. intros [_ H]. destruct (H x) as (?&?&?&?&?&?&?). unfold owned. congruence. Qed.

Lemma same_set st x o : same_obj (r_obj st x) o -> same st (set_obj st x o).
Proof.
  intros H. split; [reflexivity|]. intros y. cbn. unfold upd. destruct (Nat.eqb_spec y x) as [->|N]; auto.
  repeat split; auto.
Qed.

Lemma alive_lt st x : alive st x = true -> (x < r_next st)%nat /\ o_freed (r_obj st x) = false.
Proof. unfold alive. rewrite andb_true_iff, Nat.ltb_lt, negb_true_iff. auto. Qed.
Lemma alive_intro st x : (x < r_next st)%nat -> o_freed (r_obj st x) = false -> alive st x = true.
Proof. unfold alive. rewrite andb_true_iff, Nat.ltb_lt, negb_true_iff. auto. Qed.

Lemma Inv_Ppos_alive P D st x : Inv P D st -> 0 < P x -> alive st x = true.
Proof. intros I H. destruct (alive st x) eqn:E; auto. apply (i_dead _ _ _ I) in E. lia. Qed.

Lemma Inv_held_alive P D st x : Inv P D st -> 0 < held st x -> alive st x = true.
Proof. intros I H. destruct (alive st x) eqn:E; auto. apply (i_dead _ _ _ I) in E. lia. Qed.

(** *** Changing one object *)
Lemma held_set st x o y : (x < r_next st)%nat ->
  held (set_obj st x o) y = held st y - keeps st y x + (if o_freed o then 0 else occ y (owned o)).
Proof.
  intros H. unfold held. cbn [set_obj r_next].
  rewrite (zsum_change (keeps st y) (keeps (set_obj st x o) y) _ x H).
  - f_equal. unfold keeps. cbn. unfold upd. rewrite Nat.eqb_refl. reflexivity.
  - intros i _ N. unfold keeps. cbn. unfold upd. rewrite (proj2 (Nat.eqb_neq i x)); auto.
Qed.

Lemma opened_set st x o y : (x < r_next st)%nat ->
  opened (set_obj st x o) y = opened st y - opens st y x + (if o_freed o then 0 else occ y (o_libs o)).
Proof.
  intros H. unfold opened. cbn [set_obj r_next].
  rewrite (zsum_change (opens st y) (opens (set_obj st x o) y) _ x H).
  - f_equal. unfold opens. cbn. unfold upd. rewrite Nat.eqb_refl. reflexivity.
  - intros i _ N. unfold opens. cbn. unfold upd. rewrite (proj2 (Nat.eqb_neq i x)); auto.
Qed.

Lemma alive_set st x o y : alive (set_obj st x o) y = if Nat.eqb y x then Nat.ltb y (r_next st) && negb (o_freed o) else alive st y.
Proof. unfold alive. cbn. unfold upd. destruct (Nat.eqb y x); reflexivity. Qed.

Lemma obj_set st x o y : r_obj (set_obj st x o) y = if Nat.eqb y x then o else r_obj st y.
Proof. reflexivity. Qed.

Lemma typed_kinds st st' k o : (r_next st <= r_next st')%nat ->
  (forall x, (x < r_next st)%nat -> o_kind (r_obj st x) = o_kind (r_obj st' x)) ->
  typed st k o -> typed st' k o.
Proof.
  intros Hn Hk (A & B & C & D & E). repeat split; intros; auto;
    match goal with
    | H : o_module _ = Some _ |- _ => apply A in H
    | H : In _ (o_fences _) |- _ => apply B in H
    | H : In _ (o_futures _) |- _ => apply C in H
    | H : In _ (o_lists _) |- _ => apply D in H
    end; try tauto; try lia; try (rewrite <- Hk; tauto).
Qed.

(** only the counter and the freed mark change *)
Lemma typed_same a b k o : same a b -> typed a k o -> typed b k o.
Proof.
  intros [N S]. apply typed_kinds; [lia|]. intros x _. destruct (S x) as (K & _). exact K.
Qed.

Lemma typed_obj st k a b : same_obj a b -> typed st k a -> typed st k b.
Proof.
  intros (K & L & M & F & U & S & _) (A & B & C & D & E).
  unfold typed. rewrite <- L, <- M, <- F, <- U, <- S. repeat split; intros; auto;
    match goal with
    | H : o_module _ = Some _ |- _ => apply A in H
    | H : In _ (o_fences _) |- _ => apply B in H
    | H : In _ (o_futures _) |- _ => apply C in H
    | H : In _ (o_lists _) |- _ => apply D in H
    end; tauto.
Qed.

Lemma same_count o c : same_obj o (with_count o c).
Proof. repeat split; auto. Qed.
Lemma same_freed o : same_obj o (with_freed o).
Proof. repeat split; auto. Qed.
Lemma same_freed_count o c : same_obj o (with_freed (with_count o c)).
Proof. repeat split; auto. Qed.

Lemma all_typed_same a b : same a b ->
  (forall p, (p < r_next a)%nat -> typed a (o_kind (r_obj a p)) (r_obj a p)) ->
  (forall p, (p < r_next b)%nat -> typed b (o_kind (r_obj b p)) (r_obj b p)).
Proof.
  intros S H p Hp. pose proof S as [N So]. rewrite <- N in Hp. specialize (H p Hp).
  destruct (So p) as (K & R). rewrite <- K. apply (typed_obj b _ (r_obj a p)); [apply So|].
  apply (typed_same a); auto.
Qed.

(** *** refInc *)
Lemma ref_inc_inv P D st x : Inv P D st -> alive st x = true ->
  exists st', ref_inc x st = Ok st' /\ Inv (upd P x (P x + 1)) D st' /\ same st st'.
Proof.
  intros I Hx. pose proof (alive_lt _ _ Hx) as [Hlt Hf]. unfold ref_inc. rewrite Hx. eexists; split; [reflexivity|].
  set (o := with_count _ _). assert (S : same st (set_obj st x o)) by (apply same_set, same_count).
  assert (Hh : forall y, held (set_obj st x o) y = held st y).
  { intros y. rewrite held_set by auto. unfold keeps. subst o. cbn [o_freed with_count]. rewrite Hf.
    change (owned (with_count _ _)) with (owned (r_obj st x)). lia. }
  split; auto. constructor.
  - intros y Hy. rewrite Hh, obj_set. rewrite alive_set in Hy. unfold upd.
    destruct (Nat.eqb_spec y x) as [Ey|N]; [subst y|].
    + subst o. cbn. destruct (i_alive _ _ _ I x Hx). lia.
    + apply (i_alive _ _ _ I y Hy).
  - intros y Hy. rewrite Hh. rewrite alive_set in Hy. unfold upd. destruct (Nat.eqb_spec y x) as [Ey|N]; [subst y|].
    + subst o. cbn [o_freed with_count] in Hy. rewrite Hf, (proj2 (Nat.ltb_lt x _)) in Hy by auto. discriminate.
    + apply (i_dead _ _ _ I y Hy).
  - intros y. unfold upd. pose proof (i_pos _ _ _ I y). pose proof (i_pos _ _ _ I x). destruct (Nat.eqb y x); lia.
  - apply (all_typed_same st); auto. apply (i_typed _ _ _ I).
  - intros y Hy Hk. rewrite Hh. apply (i_once _ _ _ I y Hy). rewrite obj_set in Hk.
    destruct (Nat.eqb_spec y x) as [->|N]; exact Hk.
  - intros lib. rewrite opened_set by auto. unfold opens. subst o. cbn [o_freed o_libs with_count set_obj r_dl]. rewrite Hf.
    rewrite (i_dl _ _ _ I lib). lia.
  - apply (i_dpos _ _ _ I).
Qed.

(** *** dlclose *)
Lemma each_close : forall libs P D st,
  Inv P (fun l => D l + occ l libs) st -> (forall l, 0 <= D l) ->
  exists st', each dl_close libs st = Ok st' /\ Inv P D st' /\ same st st'.
Proof.
  induction libs as [|l libs IH]; intros P D st I HD; cbn [each].
  - exists st. split; [reflexivity|]. split; [|apply same_refl].
    apply (Inv_D P (fun l => D l + occ l [])); auto. intros; rewrite occ_nil; lia.
  - unfold dl_close at 1. pose proof (i_dl _ _ _ I l) as Hl. pose proof (opened_nonneg st l).
    cbn beta in Hl. rewrite occ_cons, Nat.eqb_refl in Hl. pose proof (occ_nonneg l libs). pose proof (HD l).
    rewrite (proj2 (Z.ltb_lt 0 (r_dl st l))) by lia. cbn [bind].
    set (st1 := {| r_obj := r_obj st; r_next := r_next st; r_dl := _ |}).
    destruct (IH P D st1) as (st' & E & I' & S'); auto.
    + destruct I as [A B C T O L M]. constructor; try assumption.
      * intros lib. subst st1. cbn [r_dl]. unfold upd. specialize (L lib). cbn beta in L. rewrite occ_cons in L.
        change (opened {| r_obj := r_obj st; r_next := r_next st; r_dl := fun y : nat => if (y =? l)%nat then r_dl st l - 1 else r_dl st y |} lib) with (opened st lib).
        rewrite (Nat.eqb_sym lib l). destruct (Nat.eqb_spec l lib) as [El|N]; [subst lib|]; lia.
      * intros lib. pose proof (HD lib). pose proof (occ_nonneg lib libs). lia.
    + exists st'. split; [exact E|]. split; [exact I'|exact S'].
Qed.

(** *** Marking an object freed: what it kept becomes pending *)
Lemma free_inv P D st x c : Inv P D st -> alive st x = true -> P x = 1 -> held st x = 0 ->
  let st' := set_obj st x (with_freed (with_count (r_obj st x) c)) in
  Inv (fun y => upd P x 0 y + occ y (owned (r_obj st x))) (fun l => D l + occ l (o_libs (r_obj st x))) st' /\ same st st'.
Proof.
  intros I Hx HP Hh. cbn zeta. pose proof (alive_lt _ _ Hx) as [Hlt Hf].
  set (o := with_freed _). assert (S : same st (set_obj st x o)) by (apply same_set, same_freed_count).
  assert (Hk : forall y, keeps st y x = occ y (owned (r_obj st x))) by (intros; unfold keeps; rewrite Hf; auto).
  assert (Hh' : forall y, held (set_obj st x o) y = held st y - occ y (owned (r_obj st x))).
  { intros y. rewrite held_set by auto. rewrite Hk. subst o. cbn [o_freed with_freed]. lia. }
  assert (Hge : forall y, 0 <= held st y - occ y (owned (r_obj st x))).
  { intros y. rewrite <- Hk. pose proof (held_ge st y x Hlt). lia. }
  split; auto. constructor.
  - intros y Hy. rewrite Hh', obj_set. rewrite alive_set in Hy. unfold upd.
    destruct (Nat.eqb_spec y x) as [Ey|N]; [subst y|].
    + subst o. cbn [o_freed with_freed negb] in Hy. rewrite andb_false_r in Hy. discriminate.
    + destruct (i_alive _ _ _ I y Hy). lia.
  - intros y Hy. rewrite Hh'. rewrite alive_set in Hy. unfold upd. pose proof (Hge y).
    destruct (Nat.eqb_spec y x) as [Ey|N]; [subst y|].
    + pose proof (occ_nonneg x (owned (r_obj st x))). lia.
    + destruct (i_dead _ _ _ I y Hy). pose proof (occ_nonneg y (owned (r_obj st x))). lia.
  - intros y. unfold upd. pose proof (i_pos _ _ _ I y). pose proof (occ_nonneg y (owned (r_obj st x))).
    destruct (Nat.eqb y x); lia.
  - apply (all_typed_same st); auto. apply (i_typed _ _ _ I).
  - intros y Hy Hky. rewrite Hh'. pose proof (occ_nonneg y (owned (r_obj st x))).
    enough (held st y <= 1) by lia. apply (i_once _ _ _ I y Hy). rewrite obj_set in Hky.
    destruct (Nat.eqb_spec y x) as [->|N]; exact Hky.
  - intros lib. rewrite opened_set by auto. unfold opens. subst o. cbn [o_freed with_freed set_obj r_dl]. rewrite Hf.
    rewrite (i_dl _ _ _ I lib). lia.
  - intros lib. pose proof (i_dpos _ _ _ I lib). pose proof (occ_nonneg lib (o_libs (r_obj st x))). lia.
Qed.

Lemma dec_inv P D st x : Inv P D st -> alive st x = true -> 0 < P x -> o_count (r_obj st x) - 1 <> 0 ->
  let st' := set_obj st x (with_count (r_obj st x) (o_count (r_obj st x) - 1)) in
  Inv (upd P x (P x - 1)) D st' /\ same st st'.
Proof.
  intros I Hx HP Hc. cbn zeta. pose proof (alive_lt _ _ Hx) as [Hlt Hf].
  set (o := with_count _ _). assert (S : same st (set_obj st x o)) by (apply same_set, same_count).
  assert (Hh : forall y, held (set_obj st x o) y = held st y).
  { intros y. rewrite held_set by auto. unfold keeps. subst o. cbn [o_freed with_count]. rewrite Hf.
    change (owned (with_count _ _)) with (owned (r_obj st x)). lia. }
  split; auto. constructor.
  - intros y Hy. rewrite Hh, obj_set. rewrite alive_set in Hy. unfold upd.
    destruct (Nat.eqb_spec y x) as [Ey|N]; [subst y|].
    + subst o. cbn. destruct (i_alive _ _ _ I x Hx). lia.
    + apply (i_alive _ _ _ I y Hy).
  - intros y Hy. rewrite Hh. rewrite alive_set in Hy. unfold upd. destruct (Nat.eqb_spec y x) as [Ey|N]; [subst y|].
    + subst o. cbn [o_freed with_count] in Hy. rewrite Hf, (proj2 (Nat.ltb_lt x _)) in Hy by auto. discriminate.
    + apply (i_dead _ _ _ I y Hy).
  - intros y. unfold upd. pose proof (i_pos _ _ _ I y). destruct (Nat.eqb y x); lia.
  - apply (all_typed_same st); auto. apply (i_typed _ _ _ I).
  - intros y Hy Hk. rewrite Hh. apply (i_once _ _ _ I y Hy). rewrite obj_set in Hk.
    destruct (Nat.eqb_spec y x) as [->|N]; exact Hk.
  - intros lib. rewrite opened_set by auto. unfold opens. subst o. cbn [o_freed o_libs with_count set_obj r_dl]. rewrite Hf.
    rewrite (i_dl _ _ _ I lib). lia.
  - apply (i_dpos _ _ _ I).
Qed.

(** *** Nesting of destructors *)
Definition rank (k : kind) : nat := match k with KQueue => 2 | KList | KKernel | KTaskQueue => 1 | _ => 0 end.

Lemma each_dec (f : nat -> rt -> res rt) (good : kind -> Prop) :
  (forall x st P, Inv P (fun _ => 0) st -> 0 < P x -> good (o_kind (r_obj st x)) ->
     exists st', f x st = Ok st' /\ Inv (upd P x (P x - 1)) (fun _ => 0) st' /\ same st st') ->
  forall l st P, Inv (fun y => P y + occ y l) (fun _ => 0) st -> (forall y, 0 <= P y) ->
    (forall x, In x l -> good (o_kind (r_obj st x))) ->
    exists st', each f l st = Ok st' /\ Inv P (fun _ => 0) st' /\ same st st'.
Proof.
  intros Hf. induction l as [|x l IH]; intros st P I HP Hg; cbn [each].
  - exists st. split; [reflexivity|]. split; [|apply same_refl].
    apply (Inv_P (fun y => P y + occ y [])); auto. intros; rewrite occ_nil; lia.
  - destruct (Hf x st _ I) as (st1 & E1 & I1 & S1).
    + rewrite occ_cons, Nat.eqb_refl. pose proof (HP x). pose proof (occ_nonneg x l). lia.
    + apply Hg; left; reflexivity.
    + rewrite E1. cbn [bind]. destruct (IH st1 P) as (st2 & E2 & I2 & S2); auto.
      * eapply Inv_P; [|exact I1]. intros y. unfold upd. rewrite !occ_cons, Nat.eqb_refl, (Nat.eqb_sym x y).
        destruct (Nat.eqb_spec y x) as [->|N]; lia.
      * intros y Hy. destruct S1 as [_ S1]. destruct (S1 y) as (K & _). rewrite <- K. apply Hg; right; auto.
      * exists st2. split; [exact E2|]. split; [exact I2|]. eapply same_trans; eauto.
Qed.

Lemma each_app f a b st : each f (a ++ b) st = bind (each f a st) (each f b).
Proof. revert st. induction a as [|x a IH]; intros st; cbn; auto. destruct (f x st); cbn; auto. Qed.

Lemma typed_parts st k o : typed st k o ->
  (k <> KKernel -> o_module o = None) /\ (k <> KList -> o_fences o = []) /\
  (k <> KList -> k <> KTaskQueue -> o_futures o = []) /\ (k <> KQueue -> o_lists o = []) /\ (k <> KModule -> o_libs o = []).
Proof.
  intros (A & B & C & D & E). repeat split; intros.
  - destruct (o_module o) as [m|]; auto. destruct (A m eq_refl). tauto.
  - destruct (o_fences o) as [|m l]; auto. destruct (B m (or_introl eq_refl)). tauto.
  - destruct (o_futures o) as [|m l]; auto. destruct (C m (or_introl eq_refl)). tauto.
  - destruct (o_lists o) as [|m l]; auto. destruct (D m (or_introl eq_refl)). tauto.
  - destruct (o_libs o) as [|m l]; auto. exfalso. apply H, E. discriminate.
Qed.

Lemma ref_dec_inv : forall fuel x st P, Inv P (fun _ => 0) st -> 0 < P x ->
  (rank (o_kind (r_obj st x)) < fuel)%nat /\ o_kind (r_obj st x) <> KTaskQueue ->
  exists st', ref_dec fuel x st = Ok st' /\ Inv (upd P x (P x - 1)) (fun _ => 0) st' /\ same st st'.
Proof.
  induction fuel as [|fuel IH]; intros x st P I HP [Hr Ht]; [lia|]. cbn [ref_dec].
  assert (Hx : alive st x = true) by (eapply Inv_Ppos_alive; eauto). rewrite Hx.
  pose proof (alive_lt _ _ Hx) as [Hlt Hf].
  destruct (i_alive _ _ _ I x Hx) as [Hc Hpos]. pose proof (held_nonneg st x) as Hhn.
  destruct (Z.eqb_spec (o_count (r_obj st x) - 1) 0) as [E0|E0].
  2: { destruct (dec_inv P (fun _ => 0) st x I Hx HP E0) as [I1 S1]. eexists; split; [reflexivity|]. auto. }
  assert (P1 : P x = 1) by lia. assert (H0 : held st x = 0) by lia.
  destruct (free_inv P (fun _ => 0) st x (o_count (r_obj st x) - 1) I Hx P1 H0) as [I1 S1].
  set (st1 := set_obj st x _) in *.
  assert (PP : forall y, upd P x 0 y = upd P x (P x - 1) y) by (intros; unfold upd; destruct (Nat.eqb y x); lia).
  assert (PN : forall y, 0 <= upd P x (P x - 1) y).
  { intros y. unfold upd. pose proof (i_pos _ _ _ I y). destruct (Nat.eqb y x); lia. }
  pose proof (i_typed _ _ _ I x Hlt) as T. pose proof (typed_parts _ _ _ T) as (Em & Ef & Eu & El & Eb).
  destruct T as (Tm & Tf & Tu & Tl & Tb).
  assert (K1 : forall y, o_kind (r_obj st1 y) = o_kind (r_obj st y)).
  { intros y. destruct S1 as [_ S1]. destruct (S1 y) as (K & _). auto. }
  assert (Fin : forall l, owned (r_obj st x) = l -> o_libs (r_obj st x) = [] ->
    (forall y, In y l -> (rank (o_kind (r_obj st y)) < fuel)%nat /\ o_kind (r_obj st y) <> KTaskQueue) ->
    exists st', each (ref_dec fuel) l st1 = Ok st' /\ Inv (upd P x (P x - 1)) (fun _ => 0) st' /\ same st st').
  { intros l Hl Hb Hg. destruct (each_dec (ref_dec fuel) (fun k => (rank k < fuel)%nat /\ k <> KTaskQueue)) with
      (l := l) (st := st1) (P := upd P x (P x - 1)) as (st' & E & I' & S'); auto.
    - apply (Inv_D _ (fun lib => 0 + occ lib (o_libs (r_obj st x)))). { intros; rewrite Hb, occ_nil; lia. }
      eapply Inv_P; [|exact I1]. intros y. cbn beta. rewrite PP, Hl. reflexivity.
    - intros y Hy. rewrite K1. auto.
    - exists st'. split; [exact E|]. split; [exact I'|]. eapply same_trans; eauto. }
  assert (None_case : owned (r_obj st x) = [] -> o_libs (r_obj st x) = [] ->
    exists st', Ok st1 = Ok st' /\ Inv (upd P x (P x - 1)) (fun _ => 0) st' /\ same st st').
  { intros A B. destruct (Fin [] A B) as (st' & E & R). { intros y []. } exists st'. auto. }
  assert (None_own : o_kind (r_obj st x) <> KKernel -> o_kind (r_obj st x) <> KList -> o_kind (r_obj st x) <> KQueue ->
    o_kind (r_obj st x) <> KTaskQueue -> owned (r_obj st x) = []).
  { intros. unfold owned. rewrite Em, Ef, Eu, El by auto. reflexivity. }
  destruct (o_kind (r_obj st x)) eqn:K; try congruence;
    try (apply None_case; [apply None_own|apply Eb]; congruence).
  - (* module *)
    destruct (each_close (o_libs (r_obj st x)) (upd P x (P x - 1)) (fun _ => 0) st1) as (st' & E & I' & S'); [|lia|].
    + eapply Inv_P; [|exact I1]. intros y. cbn beta. rewrite None_own, occ_nil, PP by congruence. lia.
    + exists st'. split; [exact E|]. split; [exact I'|]. eapply same_trans; eauto.
  - (* kernel *)
    apply Fin; [|apply Eb; congruence|].
    + unfold owned. rewrite Ef, Eu, El by congruence. rewrite !app_nil_r. reflexivity.
    + intros y Hy. destruct (o_module (r_obj st x)) as [m|] eqn:M; cbn in Hy; [|tauto]. destruct Hy as [<-|[]].
      destruct (Tm m eq_refl) as (_ & _ & ->). cbn in Hr |- *. split; [lia|discriminate].
  - (* list *)
    destruct (Fin (o_fences (r_obj st x) ++ o_futures (r_obj st x))) as (st' & E & R).
    + unfold owned. rewrite Em, El by congruence. cbn. rewrite app_nil_r. reflexivity.
    + apply Eb; congruence.
    + intros y Hy. cbn in Hr. apply in_app_or in Hy. destruct Hy as [Hy|Hy].
      * destruct (Tf y Hy) as (_ & _ & ->). cbn. split; [lia|discriminate].
      * destruct (Tu y Hy) as (_ & _ & ->). cbn. split; [lia|discriminate].
    + exists st'. rewrite each_app in E. auto.
  - (* queue *)
    apply Fin; [|apply Eb; congruence|].
    + unfold owned. rewrite Em, Ef, Eu by congruence. reflexivity.
    + intros y Hy. destruct (Tl y Hy) as (_ & _ & ->). cbn in Hr |- *. split; [lia|discriminate].
Qed.

(** *** Task queues *)
Lemma delete_inv P st f : Inv P (fun _ => 0) st -> 0 < P f ->
  o_kind (r_obj st f) = KFuture /\ P f = 1 /\ held st f = 0 ->
  exists st', delete_future f st = Ok st' /\ Inv (upd P f (P f - 1)) (fun _ => 0) st' /\ same st st'.
Proof.
  intros I HP (K & P1 & H0). unfold delete_future.
  assert (Hx : alive st f = true) by (eapply Inv_Ppos_alive; eauto). rewrite Hx.
  pose proof (alive_lt _ _ Hx) as [Hlt Hf].
  destruct (free_inv P (fun _ => 0) st f (o_count (r_obj st f)) I Hx P1 H0) as [I1 S1].
  assert (E : set_obj st f (with_freed (with_count (r_obj st f) (o_count (r_obj st f)))) = set_obj st f (with_freed (r_obj st f))).
  { destruct (r_obj st f); reflexivity. }
  rewrite E in I1, S1. eexists; split; [reflexivity|]. split; auto.
  pose proof (i_typed _ _ _ I f Hlt) as T. rewrite K in T.
  destruct (typed_parts _ _ _ T) as (Em & Ef & Eu & El & Eb).
  assert (Ow : owned (r_obj st f) = []). { unfold owned. rewrite Em, Ef, Eu, El by congruence. reflexivity. }
  rewrite Eb in I1 by congruence.
  apply (Inv_D _ (fun l => 0 + occ l [])). { intros; rewrite occ_nil; lia. }
  eapply Inv_P; [|exact I1]. intros y. cbn beta. rewrite Ow, occ_nil. unfold upd. destruct (Nat.eqb y f); lia.
Qed.

Lemma each_delete : forall l st P, Inv (fun y => P y + occ y l) (fun _ => 0) st -> (forall y, 0 <= P y) -> NoDup l ->
  (forall f, In f l -> o_kind (r_obj st f) = KFuture /\ P f = 0 /\ held st f = 0) ->
  exists st', each delete_future l st = Ok st' /\ Inv P (fun _ => 0) st' /\ same st st'.
Proof.
  induction l as [|x l IH]; intros st P I HP ND Hg; cbn [each].
  - exists st. split; [reflexivity|]. split; [|apply same_refl].
    apply (Inv_P (fun y => P y + occ y [])); auto. intros; rewrite occ_nil; lia.
  - inversion ND as [|? ? Nx ND']; subst. destruct (Hg x (or_introl eq_refl)) as (K & P0 & H0).
    assert (O : P x + occ x (x :: l) = 1). { rewrite occ_cons, Nat.eqb_refl, (occ_notin x l Nx). lia. }
    destruct (delete_inv _ st x I) as (st1 & E1 & I1 & S1). { lia. } { auto. }
    rewrite E1. cbn [bind].
    assert (Hh : forall y, held st1 y = held st y).
    { intros y. unfold delete_future in E1. destruct (alive st x) eqn:Hx; [|discriminate]. injection E1 as <-.
      pose proof (alive_lt _ _ Hx) as [Hlt Hf]. rewrite held_set by auto. cbn [o_freed with_freed].
      unfold keeps. rewrite Hf. pose proof (i_typed _ _ _ I x Hlt) as T. rewrite K in T.
      destruct (typed_parts _ _ _ T) as (Em & Ef & Eu & El & Eb).
      unfold owned. rewrite Em, Ef, Eu, El by congruence. cbn [opt_list app]. rewrite occ_nil. lia. }
    destruct (IH st1 P) as (st2 & E2 & I2 & S2); auto.
    + eapply Inv_P; [|exact I1]. intros y. unfold upd. rewrite !occ_cons, Nat.eqb_refl, (Nat.eqb_sym x y).
      destruct (Nat.eqb_spec y x) as [->|N]; lia.
    + intros f Hf. rewrite Hh. destruct S1 as [_ S1]. destruct (S1 f) as (Kf & _). rewrite <- Kf. apply Hg; right; auto.
    + exists st2. split; [exact E2|]. split; [exact I2|]. eapply same_trans; eauto.
Qed.

Lemma nodup_occ l : (forall x, occ x l <= 1) -> NoDup l.
Proof.
  intros H. apply (NoDup_count_occ Nat.eq_dec). intros x. specialize (H x). unfold occ in H. lia.
Qed.

(** releasing any object *)
Lemma release_inv P st x : Inv P (fun _ => 0) st -> 0 < P x ->
  (o_kind (r_obj st x) = KTaskQueue -> P x = 1 -> forall f, In f (o_futures (r_obj st x)) -> P f = 0) ->
  (o_kind (r_obj st x) = KTaskQueue -> held st x = 0) ->
  exists st', release x st = Ok st' /\ Inv (upd P x (P x - 1)) (fun _ => 0) st' /\ same st st'.
Proof.
  intros I HP HT HH.
  assert (D : o_kind (r_obj st x) = KTaskQueue \/ o_kind (r_obj st x) <> KTaskQueue)
    by (destruct (o_kind (r_obj st x)); (left; reflexivity) || (right; discriminate)).
  destruct D as [K|K].
  2: { apply ref_dec_inv; auto. split; auto. unfold nesting. destruct (o_kind (r_obj st x)); cbn; lia. }
  unfold release, nesting. cbn [ref_dec].
  assert (Hx : alive st x = true) by (eapply Inv_Ppos_alive; eauto). rewrite Hx.
  pose proof (alive_lt _ _ Hx) as [Hlt Hf].
  destruct (i_alive _ _ _ I x Hx) as [Hc Hpos]. specialize (HH K).
  destruct (Z.eqb_spec (o_count (r_obj st x) - 1) 0) as [E0|E0].
  2: { destruct (dec_inv P (fun _ => 0) st x I Hx HP E0) as [I1 S1]. eexists; split; [reflexivity|]. auto. }
  assert (P1 : P x = 1) by lia. specialize (HT K P1).
  destruct (free_inv P (fun _ => 0) st x (o_count (r_obj st x) - 1) I Hx P1 HH) as [I1 S1].
  set (st1 := set_obj st x _) in *. rewrite K.
  pose proof (i_typed _ _ _ I x Hlt) as T. rewrite K in T.
  destruct (typed_parts _ _ _ T) as (Em & Ef & Eu & El & Eb). destruct T as (_ & _ & Tu & _ & _).
  assert (Ow : owned (r_obj st x) = o_futures (r_obj st x)).
  { unfold owned. rewrite Em, Ef, El by congruence. cbn. apply app_nil_r. }
  assert (One : forall f, In f (o_futures (r_obj st x)) -> held st f = 1 /\ occ f (o_futures (r_obj st x)) = 1).
  { intros f Hin. destruct (Tu f Hin) as (_ & Fl & Fk). pose proof (i_once _ _ _ I f Fl) as Ho. rewrite Fk in Ho.
    specialize (Ho ltac:(discriminate)). pose proof (held_ge st f x Hlt) as Hg. unfold keeps in Hg. rewrite Hf, Ow in Hg.
    apply occ_in in Hin. lia. }
  destruct (each_delete (o_futures (r_obj st x)) st1 (upd P x (P x - 1))) as (st' & E & I' & S').
  - apply (Inv_D _ (fun l => 0 + occ l (o_libs (r_obj st x)))). { intros; rewrite Eb, occ_nil by congruence; lia. }
    eapply Inv_P; [|exact I1]. intros y. cbn beta. rewrite Ow. unfold upd. destruct (Nat.eqb y x); lia.
  - intros y. unfold upd. pose proof (i_pos _ _ _ I y). destruct (Nat.eqb y x); lia.
  - apply nodup_occ. intros y. destruct (in_dec Nat.eq_dec y (o_futures (r_obj st x))) as [Hin|Hn].
    + destruct (One y Hin). lia.
    + rewrite occ_notin by auto. lia.
  - intros f Hin. destruct (One f Hin) as [Hh Ho]. destruct (Tu f Hin) as (_ & Fl & Fk).
    assert (Nf : f <> x) by congruence. split; [|split].
    + destruct S1 as [_ S1]. destruct (S1 f) as (Kf & _). congruence.
    + unfold upd. rewrite (proj2 (Nat.eqb_neq f x)) by auto. auto.
    + subst st1. rewrite held_set by auto. cbn [o_freed with_freed]. unfold keeps. rewrite Hf, Ow. lia.
  - exists st'. split; [exact E|]. split; [exact I'|]. eapply same_trans; eauto.
Qed.
