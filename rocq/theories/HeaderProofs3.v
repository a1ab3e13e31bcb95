(** Proofs about the order of declarations (C66). *)
From Coq Require Import List Bool Arith Lia.
Import ListNotations.
From Verif Require Import CastModel HeaderModel HeaderSpec HeaderProofs.
Local Open Scope nat_scope.

Lemma item_eqb_ok : forall a b, item_eqb a b = true -> a = b.
Proof.
  intros [n b|e|x n] [n' b'|e'|y n'] H; try discriminate; cbn in H.
  - apply andb_true_iff in H as (A & B). apply Nat.eqb_eq in A. subst. f_equal. destruct b, b'; cbn in B; congruence.
  - apply Nat.eqb_eq in H. congruence.
  - apply andb_true_iff in H as (A & B). apply Nat.eqb_eq in B. subst. f_equal. destruct x, y; cbn in A; try congruence. apply Nat.eqb_eq in A. congruence.
Qed.
Lemma eff_bound : forall v x, v <> Unb -> eff v x <> Unb.
Proof. intros v x H. destruct x; cbn; congruence. Qed.
Lemma eff_twice : forall w v x, v <> Unb -> eff w (eff v x) = eff v x.
Proof. intros w v x H. destruct x; cbn; try reflexivity. destruct v; cbn; congruence. Qed.

(** ** Order, step by step *)
Definition known_needs (known : list item) (e : entry) : Prop := forall t x, In t (snd (snd e)) -> In x (needs false (fst (snd e)) t) -> In x known.
Fixpoint ordered (known : list item) (l : list entry) : Prop :=
  match l with [] => True | e :: l => known_needs known e /\ ordered (fst e :: known) l end.
Lemma known_mono : forall k k' e, incl k k' -> known_needs k e -> known_needs k' e.
Proof. intros k k' e I0 H t x A B. apply I0. eapply H; eauto. Qed.
Lemma ordered_mono : forall l k k', incl k k' -> ordered k l -> ordered k' l.
Proof.
  induction l as [|e l IH]; intros k k' I0 H; cbn in *; auto. destruct H as (A & B). split; [eapply known_mono; eauto|].
  eapply IH; [|exact B]. intros x [<- |Y]; [left; auto|right; apply I0; auto].
Qed.
Lemma ordered_app : forall l l' k, ordered k (l ++ l') <-> ordered k l /\ ordered (rev (map fst l) ++ k) l'.
Proof.
  induction l as [|e l IH]; intros l' k; cbn [app ordered map rev]; [cbn; tauto|]. rewrite IH.
  rewrite <- app_assoc. cbn [app]. tauto.
Qed.
Lemma ordered_in_order : forall l k, ordered k l -> in_order k l.
Proof.
  intros l k H before i v ms after -> t x A B. apply ordered_app in H as (_ & H & _).
  specialize (H t x A B). apply in_app_or in H as [H|H]; [right; apply in_rev; exact H|left; auto].
Qed.

(** ** Emission *)
Definition declares (first : list item) (v : var) (t : ty) : Prop :=
  (forall e, In e (enums v t) -> In (IEnum e) first) /\ (forall x n b, In (x, n, b) (vectors v t) -> In (IVec n b) first).
Definition keys (l : list entry) : list item := map fst l.

Lemma fold_emit : forall first v arr ms,
  (forall t, In t ms -> forall done, ordered first done ->
     let r := emit true v t done in ordered first r /\ (exists l, r = done ++ l) /\ (forall x, In x (needs arr v t) -> In x (keys r ++ first))) ->
  forall done, ordered first done ->
  let r := fold_left (fun done t => emit true v t done) ms done in
  ordered first r /\ (exists l, r = done ++ l) /\ (forall t x, In t ms -> In x (needs arr v t) -> In x (keys r ++ first)).
Proof.
  intros first v arr. induction ms as [|t ms IH]; intros H done O0; cbn [fold_left]; cbn zeta.
  - split; auto. split; [exists []; rewrite app_nil_r; auto|]. intros t x [].
  - destruct (H t (or_introl eq_refl) done O0) as (A1 & (l1 & A2) & A3). cbn zeta in *.
    destruct (IH (fun u I0 => H u (or_intror I0)) _ A1) as (B1 & (l2 & B2) & B3). cbn zeta in *.
    split; auto. split; [exists (l1 ++ l2); rewrite B2, A2, app_assoc; auto|].
    intros u x [<- |Y] X; [|eapply B3; eauto]. apply A3 in X. rewrite B2. unfold keys in *. rewrite map_app. apply in_app_iff in X as [X|X]; rewrite !in_app_iff; auto.
Qed.
Lemma emit_ordered : forall first t v arr done, v <> Unb -> uniform_arrays arr v t = true -> declares first v t -> ordered first done ->
  let r := emit true v t done in ordered first r /\ (exists l, r = done ++ l) /\ (forall x, In x (needs arr v t) -> In x (keys r ++ first)).
Proof.
  intros first. induction t as [x s|x n b|n t IH|x nm al ms IH] using hty_ind; intros v arr done V U D O0; cbn [emit]; cbn zeta.
  - split; auto. split; [exists []; rewrite app_nil_r; auto|]. intros y Y. destruct s; cbn in Y; try contradiction. destruct Y as [<- |[]].
    apply in_or_app. right. apply D. cbn. auto.
  - split; auto. split; [exists []; rewrite app_nil_r; auto|]. intros y Y. cbn in Y. destruct Y as [<- |[]]. apply in_or_app. right. destruct D as (_ & D). eapply D. cbn. left. reflexivity.
  - apply IH; auto.
  - cbn [uniform_arrays] in U. apply andb_true_iff in U as (U1 & U2).
    assert (K : (if arr then Uni else eff v x) = eff v x) by (destruct arr; cbn in U1; [destruct (eff v x); congruence|auto]).
    cbn [needs]. rewrite K. cbn [negb andb].
    destruct (existsb (fun e => item_eqb (IStruct (eff v x) nm) (fst e)) done) eqn:E.
    + split; auto. split; [exists []; rewrite app_nil_r; auto|]. intros y [<- |[]]. apply existsb_exists in E as (e & E1 & E2). apply item_eqb_ok in E2. rewrite E2.
      apply in_or_app. left. apply in_map. auto.
    + pose proof (fold_emit first (eff v x) false ms) as F.
      assert (H : forall t, In t ms -> forall done, ordered first done ->
        let r := emit true (eff v x) t done in ordered first r /\ (exists l, r = done ++ l) /\ (forall y, In y (needs false (eff v x) t) -> In y (keys r ++ first))).
      { intros t T d0 O1. rewrite Forall_forall in IH. apply IH; auto; [apply eff_bound; auto|rewrite forallb_forall in U2; apply U2; auto|].
        destruct D as (D1 & D2). cbn [enums vectors] in D1, D2. split; [intros e Y; apply D1|intros y n b Y; eapply D2]; apply in_flat_map; exists t; eauto. }
      destruct (F H done O0) as (B1 & (l & B2) & B3). cbn zeta in *. split; [|split].
      * apply ordered_app. split; auto. cbn [ordered]. split; auto. intros t y T Y. cbn [fst snd] in *. specialize (B3 t y T Y). rewrite in_app_iff in *. destruct B3; auto. left. apply -> in_rev. auto.
      * rewrite B2. eexists. rewrite <- app_assoc. reflexivity.
      * intros y [<- |[]]. unfold keys. rewrite map_app. cbn [map fst]. rewrite !in_app_iff. left. right. left. auto.
Qed.
(** Only structures, never of an unbound or, without soa, soa variability. *)
Definition struct_keys (P : var -> Prop) (l : list entry) : Prop := forall e, In e l -> exists x n, fst e = IStruct x n /\ P x.
Definition uv (x : var) : Prop := x = Uni \/ x = Vary.
Lemma emit_keys : forall t v done, v <> Unb -> no_soa v t = true -> struct_keys uv done -> struct_keys uv (emit true v t done).
Proof.
  induction t as [x s|x n b|n t IH|x nm al ms IH] using hty_ind; intros v done V U K; cbn [emit]; auto.
  cbn [no_soa] in U. apply andb_true_iff in U as (U1 & U2). cbn [negb andb]. destruct (existsb (fun e => item_eqb (IStruct (eff v x) nm) (fst e)) done); auto.
  assert (F : forall ms done, Forall (fun t => forall v done, v <> Unb -> no_soa v t = true -> struct_keys uv done -> struct_keys uv (emit true v t done)) ms ->
     forallb (no_soa (eff v x)) ms = true -> struct_keys uv done -> struct_keys uv (fold_left (fun done t => emit true (eff v x) t done) ms done)).
  { clear IH U1 U2 K done ms. induction ms as [|t ms IHm]; intros done IH U2 K; cbn [fold_left]; auto. inversion IH; subst. cbn in U2. apply andb_true_iff in U2 as (A & B). apply IHm; auto. apply H1; auto. apply eff_bound. auto. }
  intros e Y. apply in_app_or in Y as [Y|[<- |[]]]; [revert e Y; apply F; auto|]. cbn. exists (eff v x), nm. split; auto. pose proof (eff_bound v x V). unfold uv. destruct (eff v x); try congruence; auto.
Qed.

(** ** The preprocessor *)
Lemma preprocess_ordered : forall l seen k k', struct_keys uv l -> incl k k' -> ordered k l ->
  (forall x n, uv x -> In (guard x n) seen -> In (IStruct x n) k') -> ordered k' (preprocess seen l).
Proof.
  induction l as [|[i d] l IH]; intros seen k k' S0 I0 O0 G; cbn [preprocess]; auto.
  destruct (S0 (i, d) (or_introl eq_refl)) as (x & n & E & X). cbn in E. subst i. cbn [ordered fst] in O0. destruct O0 as (O1 & O2).
  assert (S1 : struct_keys uv l) by (intros e Y; apply S0; right; auto).
  match goal with |- context [existsb ?f seen] => destruct (existsb f seen) eqn:E end.
  - apply existsb_exists in E as (g & E1 & E2). apply andb_true_iff in E2 as (E2 & E3). apply Nat.eqb_eq in E3. apply eqb_prop in E2. destruct g as (gb & gn). cbn in E2, E3. subst.
    apply (IH seen (IStruct x n :: k) k' S1); auto. intros y [<- |Y]; auto.
  - cbn [ordered fst]. split; [eapply known_mono; eauto|]. apply (IH _ (IStruct x n :: k) (IStruct x n :: k') S1); auto.
    + intros y [<- |Y]; [left; auto|right; auto].
    + intros y m Y [Q|Q]; [|right; auto]. left. unfold guard in Q. injection Q as Q1 ->. f_equal. destruct X as [-> | ->], Y as [-> | ->]; cbn in Q1; congruence.
Qed.
Lemma preprocess_complete : forall l seen x n, struct_keys uv l -> uv x -> In (IStruct x n) (keys l) -> In (guard x n) seen \/ In (IStruct x n) (keys (preprocess seen l)).
Proof.
  induction l as [|[i d] l IH]; intros seen x n S0 X H; [destruct H|]. cbn [preprocess].
  destruct (S0 (i, d) (or_introl eq_refl)) as (y & m & E & Y). cbn in E. subst i.
  assert (S1 : struct_keys uv l) by (intros e Z0; apply S0; right; auto).
  assert (Q : forall seen, In (IStruct x n) (keys l) -> In (guard x n) seen \/ In (IStruct x n) (keys (preprocess seen l))) by (intros; apply IH; auto).
  match goal with |- context [existsb ?f seen] => destruct (existsb f seen) eqn:E end.
  - apply existsb_exists in E as (g & E1 & E2). apply andb_true_iff in E2 as (E2 & E3). apply Nat.eqb_eq in E3. apply eqb_prop in E2. destruct g as (gb & gn). cbn in E2, E3. subst.
    destruct H as [H|H]; auto. cbn in H. injection H as -> ->. left. auto.
  - cbn [keys map fst]. destruct H as [H|H]; [right; left; auto|]. destruct (Q (guard y m :: seen) H) as [[Z0|Z0]|Z0]; auto; [|right; right; auto].
    right. left. unfold guard in Z0. injection Z0 as Z1 ->. f_equal. destruct X as [-> | ->], Y as [-> | ->]; cbn in Z1; congruence.
Qed.

(** ** The list of structures *)
Lemma items_ordered : forall first ts done, (forall t, In t ts -> uniform_arrays false Uni t = true /\ declares first Uni t) -> ordered first done ->
  let r := fold_left (fun done t => emit true Uni t done) ts done in
  ordered first r /\ (exists l, r = done ++ l) /\ (forall t x, In t ts -> In x (needs false Uni t) -> In x (keys r ++ first)).
Proof.
  intros first ts done H O0. apply fold_emit; auto. intros t T d O1. destruct (H t T). apply emit_ordered; auto. congruence.
Qed.
Lemma items_keys : forall ts done, (forall t, In t ts -> no_soa Uni t = true) -> struct_keys uv done -> struct_keys uv (fold_left (fun done t => emit true Uni t done) ts done).
Proof.
  induction ts as [|t ts IH]; intros done H K; cbn [fold_left]; auto. apply IH; [intros; apply H; right; auto|]. apply emit_keys; auto; [congruence|apply H; left; auto].
Qed.
(** What holds of a type holds of the structures in it. *)
Lemma structs_ok : forall first t v arr, v <> Unb -> uniform_arrays arr v t = true -> no_soa v t = true -> declares first v t ->
  forall u, In u (structs v t) -> uniform_arrays false Uni u = true /\ no_soa Uni u = true /\ declares first Uni u.
Proof.
  intros first. induction t as [x s|x n b|n t IH|x nm al ms IH] using hty_ind; intros v arr V A S0 D u U; cbn [structs] in U; try contradiction.
  - eapply IH; eauto.
  - cbn [uniform_arrays no_soa] in A, S0. apply andb_true_iff in A as (A1 & A2). apply andb_true_iff in S0 as (S1 & S2). destruct U as [<- |U].
    + cbn [uniform_arrays no_soa]. rewrite (eff_twice Uni v x V), A2, S1, S2. repeat split; auto; destruct D as (D1 & D2); cbn [enums vectors] in *; rewrite (eff_twice Uni v x V); auto.
    + apply in_flat_map in U as (t & T & U). rewrite Forall_forall in IH. rewrite forallb_forall in A2, S2. eapply (IH t T (eff v x) false); eauto; [apply eff_bound; auto|].
      destruct D as (D1 & D2). cbn [enums vectors] in D1, D2. split; [intros e Y; apply D1|intros y n b Y; eapply D2]; apply in_flat_map; exists t; eauto.
Qed.
Lemma dedup_in : forall l x, In x l -> In x (dedup l).
Proof.
  induction l as [|y l IH]; intros x H; [destruct H|]. cbn [dedup]. destruct H as [<- |H]; [left; auto|].
  destruct (item_eqb y x) eqn:E; [apply item_eqb_ok in E; left; auto|]. right. apply filter_In. split; auto. rewrite E. auto.
Qed.
Lemma uniform_vectors_in : forall t v, uniform_vectors_only v t = true -> forall x n b, In (x, n, b) (vectors v t) -> x = Uni.
Proof.
  induction t as [x s|x n b|n t IH|x nm al ms IH] using hty_ind; intros v U y m c H; cbn [vectors uniform_vectors_only] in *; try contradiction.
  - destruct H as [H|[]]. injection H as <- _ _. destruct (eff v x); congruence.
  - eapply IH; eauto.
  - apply in_flat_map in H as (t & T & H). rewrite Forall_forall in IH. rewrite forallb_forall in U. eapply IH; eauto.
Qed.
