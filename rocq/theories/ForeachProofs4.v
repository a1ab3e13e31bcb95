(** foreach_active, foreach_unique and varying function calls. *)
From Coq Require Import ZArith List Bool Lia Permutation SpecFloat.
From Verif Require Import Bits LanesModel LanesSpec LanesProofs ForeachModel ForeachSpec.
Import ListNotations.
Local Open Scope Z_scope.

Lemma running_nil W r : running W r = [] -> forall l, (l < W)%nat -> r l = false.
Proof.
  unfold running. intros H l Hl. destruct (r l) eqn:E; [|reflexivity].
  assert (In l (filter r (seq 0 W))) by (apply filter_In; split; [apply in_seq; lia|exact E]).
  rewrite H in H0. destruct H0.
Qed.

Lemma running_In W r l : In l (running W r) <-> (l < W)%nat /\ r l = true.
Proof. unfold running. rewrite filter_In, in_seq. intuition lia. Qed.

Lemma running_ext W r r' : (forall l, (l < W)%nat -> r l = r' l) -> running W r = running W r'.
Proof. intros H. unfold running. apply filter_ext_in. intros l Hl. apply in_seq in Hl. apply H. lia. Qed.

Lemma movmsk_ext W r r' : (forall l, (l < W)%nat -> r l = r' l) -> movmsk W r = movmsk W r'.
Proof.
  intros H. apply Z.bits_inj'. intros j Hj. rewrite !movmsk_testbit by assumption.
  destruct (Z.ltb_spec j (Z.of_nat W)); [|reflexivity]. cbn. apply H. lia.
Qed.

Lemma movmsk_andnot W r x :
  Z.land (movmsk W r) (Z.lnot (movmsk W x)) = movmsk W (fun l => r l && negb (x l)).
Proof.
  apply Z.bits_inj'. intros j Hj. rewrite Z.land_spec, Z.lnot_spec, !movmsk_testbit by assumption.
  destruct (j <? Z.of_nat W); reflexivity.
Qed.

Lemma movmsk_single W f : (f < W)%nat -> movmsk W (fun l => Nat.eqb l f) = Z.shiftl 1 (Z.of_nat f).
Proof.
  intros Hf. apply Z.bits_inj'. intros j Hj. rewrite movmsk_testbit by assumption.
  rewrite Z.shiftl_spec by lia. destruct (Z.eqb_spec j (Z.of_nat f)) as [->|N].
  - rewrite Nat2Z.id, Nat.eqb_refl, Z.sub_diag. destruct (Z.ltb_spec (Z.of_nat f) (Z.of_nat W)); [reflexivity|lia].
  - destruct (Nat.eqb_spec (Z.to_nat j) f); [lia|]. rewrite andb_false_r. symmetry.
    destruct (Z.ltb_spec j (Z.of_nat f)).
    + apply Z.testbit_neg_r. lia.
    + change 1 with (2 ^ 0). rewrite Z.pow2_bits_false by lia. reflexivity.
Qed.

Lemma movmsk_is_zero W r : (movmsk W r =? 0) = match running W r with [] => true | _ => false end.
Proof.
  rewrite movmsk_zero. destruct (running W r) as [|f t] eqn:E.
  - apply negb_true_iff. destruct (existsb r (seq 0 W)) eqn:X; [|reflexivity].
    apply existsb_exists in X as (l & Hl & Hr). apply in_seq in Hl.
    rewrite (running_nil W r E l) in Hr by lia. discriminate.
  - apply negb_false_iff. apply existsb_exists. exists f.
    assert (In f (running W r)) by (rewrite E; now left). apply running_In in H as [H1 H2].
    split; [apply in_seq; lia|exact H2].
Qed.

Lemma cttz_running W r f t : (W <= 64)%nat -> running W r = f :: t -> cttz64 (movmsk W r) = Z.of_nat f.
Proof.
  intros HW E. pose proof (first_running W r HW) as H. rewrite E in H. exact H.
Qed.

(* turning off the first running lane *)
Lemma running_tail W r f t : running W r = f :: t ->
  running W (fun l => r l && negb (Nat.eqb l f)) = t.
Proof.
  unfold running. generalize (seq_NoDup W 0). generalize (seq 0 W) as xs.
  induction xs as [|x xs IH]; intros ND E; cbn in E; [discriminate|].
  inversion ND as [|? ? Hx ND']; subst. cbn [filter]. destruct (r x) eqn:R.
  - injection E as -> E. rewrite Nat.eqb_refl. cbn. rewrite <- E. apply filter_ext_in.
    intros l Hl. destruct (Nat.eqb_spec l f); [subst; contradiction|]. apply andb_true_r.
  - cbn. now apply IH.
Qed.

Theorem foreach_active_spec W (im fm : gang bool) : (W <= 64)%nat ->
  let full := fun l => im l && fm l in
  running W full <> [] ->
  exists fuel evs, foreach_active W im fm fuel = Some (evs, im) /\
    map av_index evs = map Z.of_nat (running W full) /\
    Forall (fun ev => forall l, (l < W)%nat -> (av_mask ev l = true <-> Z.of_nat l = av_index ev)) evs.
Proof.
  intros HW full Hne.
  assert (G : forall n r, running W r <> [] -> length (running W r) = n ->
    (forall l, (l < W)%nat -> r l = true -> fm l = true) ->
    exists fuel evs, foreach_active_loop W fm fuel (movmsk W r) = Some evs /\
    map av_index evs = map Z.of_nat (running W r) /\
    Forall (fun ev => forall l, (l < W)%nat -> (av_mask ev l = true <-> Z.of_nat l = av_index ev)) evs).
  { induction n as [|n IH]; intros r Hr Hlen Hsub.
    { destruct (running W r); [congruence|discriminate]. }
    destruct (running W r) as [|f t] eqn:E; [congruence|].
    assert (Hf : (f < W)%nat /\ r f = true) by (apply running_In; rewrite E; now left).
    destruct Hf as [Hf Hrf].
    assert (EV : forall l, (l < W)%nat -> 
      ((wraps 32 (Z.of_nat f) =? Z.of_nat l) && fm l = true <-> Z.of_nat l = Z.of_nat f)).
    { intros l Hl. rewrite wraps_id by (try lia; unfold in_s; change (2 ^ (32 - 1)) with 2147483648; lia).
      split.
      - intros H. apply andb_true_iff in H as [H _]. apply Z.eqb_eq in H. lia.
      - intros H. assert (l = f) by lia. subst l. rewrite Z.eqb_refl. cbn. now apply Hsub. }
    set (r' := fun l => r l && negb (Nat.eqb l f)).
    assert (NR : Z.land (movmsk W r) (Z.lnot (Z.shiftl 1 (Z.of_nat f))) = movmsk W r').
    { rewrite <- (movmsk_single W f Hf). apply movmsk_andnot. }
    assert (T : running W r' = t) by (apply running_tail; exact E).
    destruct t as [|f2 t].
    - exists 1%nat, [AEvent (Z.of_nat f) (fun l => (wraps 32 (Z.of_nat f) =? Z.of_nat l) && fm l)].
      cbn [foreach_active_loop]. rewrite (cttz_running W r f []) by auto.
      destruct (Z.leb_spec 64 (Z.of_nat f)); [lia|]. rewrite NR, movmsk_is_zero, T.
      split; [reflexivity|]. split; [reflexivity|]. constructor; [exact EV|constructor].
    - destruct (IH r') as (fuel & evs & A & B & C).
      { congruence. } { rewrite T. cbn in *. lia. }
      { intros l Hl H. apply Hsub; auto. unfold r' in H. apply andb_true_iff in H. apply H. }
      exists (S fuel), (AEvent (Z.of_nat f) (fun l => (wraps 32 (Z.of_nat f) =? Z.of_nat l) && fm l) :: evs).
      cbn [foreach_active_loop]. rewrite (cttz_running W r f (f2 :: t)) by auto.
      destruct (Z.leb_spec 64 (Z.of_nat f)); [lia|]. rewrite NR, movmsk_is_zero, T, A.
      split; [reflexivity|]. split; [cbn [map av_index]; rewrite B, T; reflexivity|].
      constructor; [exact EV|exact C]. }
  destruct (G (length (running W full)) full Hne eq_refl) as (fuel & evs & A & B & C).
  { intros l Hl H. unfold full in H. apply andb_true_iff in H. apply H. }
  exists fuel, evs. unfold foreach_active. fold full. rewrite A. auto.
Qed.

Lemma foreach_active_all_off W im fm : (W <= 64)%nat ->
  running W (fun l => im l && fm l) = [] -> forall fuel, foreach_active W im fm fuel = None.
Proof.
  intros HW E fuel. unfold foreach_active.
  pose proof (first_running W (fun l => im l && fm l) HW) as H. rewrite E in H.
  destruct fuel; [reflexivity|]. cbn [foreach_active_loop]. rewrite H. reflexivity.
Qed.

(** ** foreach_unique *)

Lemma filter_partition {A} (r p : A -> bool) xs :
  Permutation (filter r xs) (filter (fun x => r x && p x) xs ++ filter (fun x => r x && negb (p x)) xs).
Proof.
  induction xs as [|x xs IH]; cbn; [constructor|]. destruct (r x), (p x); cbn; auto.
  - now apply Permutation_cons_app.
Qed.

Section Unique.
Context {A : Type} (veq : A -> A -> bool) (W : nat) (im fm : gang bool) (e : gang A) (HW : (W <= 64)%nat).
Let full : nat -> bool := fun l => im l && fm l.
Context (Hrefl : forall l, In l (running W full) -> veq (e l) (e l) = true)
        (Hsym : forall l l', In l (running W full) -> In l' (running W full) -> veq (e l) (e l') = true -> veq (e l') (e l) = true)
        (Htrans : forall l l' l'', In l (running W full) -> In l' (running W full) -> In l'' (running W full) ->
           veq (e l) (e l') = true -> veq (e l') (e l'') = true -> veq (e l) (e l'') = true).

Lemma unique_loop : forall n r, running W r <> [] -> (length (running W r) <= n)%nat ->
  (forall l, (l < W)%nat -> r l = true -> full l = true) ->
  (forall l l', In l (running W r) -> In l' (running W full) -> veq (e l) (e l') = true -> r l' = true) ->
  exists fuel evs, foreach_unique_loop veq W im fm e fuel (movmsk W r) = UDone evs /\
    Permutation (flat_map (fun ev => running W (uv_mask ev)) evs) (running W r) /\
    Forall (fun ev => exists f, In f (running W r) /\ uv_value ev = e f /\
       forall l, (l < W)%nat -> uv_mask ev l = full l && veq (uv_value ev) (e l)) evs /\
    pairwise_distinct veq (map uv_value evs).
Proof.
  induction n as [|n IH]; intros r Hr Hlen Hsub Hcl.
  { destruct (running W r); [congruence|cbn in Hlen; lia]. }
  destruct (running W r) as [|f t] eqn:E; [congruence|].
  assert (Inf : In f (running W r)) by (rewrite E; now left).
  pose proof (proj1 (running_In W r f) Inf) as [Hf Hrf].
  assert (Inff : In f (running W full)) by (apply running_In; split; auto).
  set (u := e f).
  set (lm := fun l => im l && veq u (e l)).
  set (r' := fun l => r l && negb (lm l)).
  set (ev := UEvent u (fun l => lm l && fm l)).
  assert (R' : forall l, (l < W)%nat -> r' l = r l && negb (veq u (e l))).
  { intros l Hl. unfold r', lm. destruct (r l) eqn:Rl; [|reflexivity]. cbn.
    specialize (Hsub l Hl Rl). unfold full in Hsub. apply andb_true_iff in Hsub as [-> _]. reflexivity. }
  assert (EVM : forall l, (l < W)%nat -> uv_mask ev l = full l && veq (uv_value ev) (e l)).
  { intros l Hl. cbn. unfold lm, full. destruct (im l), (fm l), (veq u (e l)); reflexivity. }
  assert (EVR : running W (uv_mask ev) = running W (fun l => r l && veq u (e l))).
  { apply running_ext. intros l Hl. rewrite EVM by exact Hl. cbn [uv_value ev].
    destruct (veq u (e l)) eqn:V; [|now rewrite !andb_false_r]. rewrite !andb_true_r.
    destruct (full l) eqn:Fl.
    - symmetry. apply (Hcl f l); auto. { rewrite E in Inf. exact Inf. } apply running_In. auto.
    - destruct (r l) eqn:Rl; [|reflexivity]. rewrite (Hsub l Hl Rl) in Fl. discriminate. }
  assert (PERM : Permutation (running W (uv_mask ev) ++ running W r') (running W r)).
  { rewrite EVR. rewrite (running_ext W r' _ R'). symmetry. unfold running.
    apply (filter_partition r (fun l => veq u (e l))). }
  assert (HEAD : forall fuel, foreach_unique_loop veq W im fm e (S fuel) (movmsk W r) =
     if movmsk W r' =? 0 then UDone [ev] else ucons ev (foreach_unique_loop veq W im fm e fuel (movmsk W r'))).
  { intros fuel. cbn [foreach_unique_loop]. rewrite (cttz_running W r f t) by auto.
    unfold extract. destruct (Z.leb_spec 0 (Z.of_nat f)); [|lia].
    destruct (Z.ltb_spec (Z.of_nat f) (Z.of_nat W)); [|lia]. cbn [andb]. rewrite Nat2Z.id.
    fold u. change (fun l : nat => im l && veq u (e l)) with lm. fold ev. rewrite movmsk_andnot. reflexivity. }
  assert (Fev : forall rr, In f (running W rr) -> exists f0, In f0 (running W rr) /\ uv_value ev = e f0 /\
       forall l, (l < W)%nat -> uv_mask ev l = full l && veq (uv_value ev) (e l)).
  { intros rr Hin. exists f. auto. }
  destruct (running W r') as [|f2 t2] eqn:E'.
  - exists 1%nat, [ev]. rewrite HEAD, movmsk_is_zero, E'. split; [reflexivity|].
    rewrite E in *. split; [cbn; rewrite app_nil_r in *; exact PERM|].
    split; [|constructor; constructor]. constructor; [|constructor]. rewrite <- E. apply Fev. rewrite E; exact Inf.
  - destruct (IH r') as (fuel & evs & Hrun & P & F & D).
    { rewrite E'. discriminate. }
    { assert (L : length (running W (uv_mask ev) ++ running W r') = length (running W r)).
      { apply Permutation_length. rewrite E'. exact PERM. }
      rewrite app_length, E in L.
      assert (In f (running W (uv_mask ev))).
      { rewrite EVR. apply running_In. split; [exact Hf|]. rewrite Hrf. cbn. apply Hrefl. exact Inff. }
      destruct (running W (uv_mask ev)); [contradiction|]. cbn in L, Hlen |- *. lia. }
    { intros l Hl H. apply Hsub; auto. unfold r' in H. apply andb_true_iff in H. apply H. }
    { intros l l' Hl Hl' V. apply running_In in Hl as [HlW Hl]. rewrite R' in Hl by exact HlW.
      apply andb_true_iff in Hl as [Rl Nl]. apply negb_true_iff in Nl.
      pose proof (proj1 (running_In W full l') Hl') as [HlW' Hfl'].
      assert (Inl : In l (running W full)) by (apply running_In; split; auto).
      rewrite R' by exact HlW'. rewrite (Hcl l l'); auto.
      2:{ rewrite <- E. apply running_In. auto. }
      cbn. apply negb_true_iff. destruct (veq u (e l')) eqn:V2; [|reflexivity].
      rewrite <- Nl. symmetry. apply (Htrans f l' l); auto. }
    exists (S fuel), (ev :: evs). rewrite HEAD, movmsk_is_zero, E', Hrun. split; [reflexivity|].
    rewrite <- E. split; [|split].
    + cbn [flat_map]. rewrite P, E'. exact PERM.
    + constructor; [apply Fev; rewrite E in *; exact Inf|].
      apply Forall_forall. intros x Hx. rewrite Forall_forall in F. destruct (F x Hx) as (f0 & I0 & V0 & M0).
      exists f0. split; [|auto]. apply running_In in I0 as [I1 I2]. apply running_In. split; [exact I1|].
      unfold r' in I2. apply andb_true_iff in I2. apply I2.
    + cbn [map]. constructor; [|exact D]. apply Forall_forall. intros v Hv.
      apply in_map_iff in Hv as (x & <- & Hx). rewrite Forall_forall in F.
      destruct (F x Hx) as (f0 & I0 & V0 & _). rewrite V0.
      apply running_In in I0 as [I1 I2]. rewrite R' in I2 by exact I1. apply andb_true_iff in I2 as [_ I2].
      apply negb_true_iff in I2. exact I2.
Qed.

Theorem foreach_unique_spec : running W full <> [] ->
  exists fuel evs, foreach_unique veq W im fm e fuel = UDone evs /\
    Permutation (flat_map (fun ev => running W (uv_mask ev)) evs) (running W full) /\
    Forall (fun ev => (exists f, In f (running W full) /\ uv_value ev = e f) /\
       forall l, (l < W)%nat -> uv_mask ev l = full l && veq (uv_value ev) (e l)) evs /\
    pairwise_distinct veq (map uv_value evs).
Proof.
  intros Hne. destruct (unique_loop (length (running W full)) full Hne) as (fuel & evs & H1 & H2 & H3 & H4).
  - lia.
  - auto.
  - intros l l' _ Hl' _. apply running_In in Hl'. apply Hl'.
  - exists fuel, evs. split; [exact H1|]. split; [exact H2|]. split; [|exact H4].
    eapply Forall_impl; [|exact H3]. intros ev (f & F1 & F2 & F3). split; [exists f|]; auto.
Qed.
End Unique.

(** Floating point equality *)
Lemma SFeqb_cases a b : SFeqb a b = true <->
  (a = b /\ a <> S754_nan) \/ (exists s1 s2, a = S754_zero s1 /\ b = S754_zero s2).
Proof.
  unfold SFeqb, SFcompare.
  destruct a as [sa|sa| |sa ma ea], b as [sb|sb| |sb mb eb]; try (destruct sa); try (destruct sb);
    split; intros H; try discriminate; try reflexivity;
    try (right; eauto; fail); try (left; split; congruence; fail);
    try (destruct H as [[H1 H2]|(? & ? & H1 & H2)]; congruence).
  all: try (destruct (Z.compare ea eb) eqn:C1; try discriminate;
    apply Z.compare_eq in C1; subst; 
    destruct (Pos.compare_cont Eq ma mb) eqn:C2; cbn in H; try discriminate;
    apply Pos.compare_eq in C2; subst; left; split; [reflexivity|congruence]).
  all: destruct H as [[H1 H2]|(? & ? & H1 & H2)]; try congruence; injection H1 as -> ->;
    rewrite Z.compare_refl; change (Pos.compare_cont Eq mb mb) with (Pos.compare mb mb);
    rewrite Pos.compare_refl; reflexivity.
Qed.

Lemma SFeqb_refl a : a <> S754_nan -> SFeqb a a = true.
Proof. intros H. apply SFeqb_cases. auto. Qed.
Lemma SFeqb_sym a b : SFeqb a b = true -> SFeqb b a = true.
Proof.
  intros H. apply SFeqb_cases in H as [[-> H]|(s1 & s2 & -> & ->)]; apply SFeqb_cases; [left; auto|right; eauto].
Qed.
Lemma SFeqb_trans a b c : SFeqb a b = true -> SFeqb b c = true -> SFeqb a c = true.
Proof.
  intros H1 H2. apply SFeqb_cases in H1 as [[-> H]|(s1 & s2 & -> & ->)]; [exact H2|].
  apply SFeqb_cases in H2 as [[<- H]|(s3 & s4 & _ & ->)]; apply SFeqb_cases; right; eauto.
Qed.

(** ** Varying function calls *)

Section Call.
Context {St R : Type} (call : Z -> gang bool -> St -> St * gang R) (W : nat) (im fm : gang bool) (fp : gang Z).
Context (HW : (W <= 64)%nat).
Let full : nat -> bool := fun l => im l && fm l.

Lemma exec_calls_ext calls : forall s res res' l, res l = res' l ->
  fst (exec_calls call calls s res) = fst (exec_calls call calls s res') /\
  snd (exec_calls call calls s res) l = snd (exec_calls call calls s res') l.
Proof.
  induction calls as [|[p m] calls IH]; intros s res res' l E; cbn; [auto|].
  apply IH. cbn. destruct (m l); auto.
Qed.

Lemma call_loop : forall n r s res, (length (running W r) <= n)%nat ->
  (forall l, (l < W)%nat -> r l = true -> full l = true) ->
  (forall l l', In l (running W r) -> In l' (running W full) -> fp l = fp l' -> r l' = true) ->
  exists fuel s' res' calls, varying_call_loop call W fm fp fuel r s res = Some (s', res', calls) /\
    s' = fst (exec_calls call calls s res) /\
    (forall l, (l < W)%nat -> res' l = snd (exec_calls call calls s res) l) /\
    Permutation (flat_map (fun c => running W (snd c)) calls) (running W r) /\
    Forall (fun c => (exists l, In l (running W r) /\ fp l = fst c) /\
       forall l, (l < W)%nat -> (snd c l = true <-> full l = true /\ fp l = fst c)) calls /\
    NoDup (map fst calls).
Proof.
  induction n as [|n IH]; intros r s res Hlen Hsub Hcl.
  all: assert (BASE : running W r = [] -> exists fuel s' res' calls, varying_call_loop call W fm fp fuel r s res = Some (s', res', calls) /\
    s' = fst (exec_calls call calls s res) /\
    (forall l, (l < W)%nat -> res' l = snd (exec_calls call calls s res) l) /\
    Permutation (flat_map (fun c => running W (snd c)) calls) (running W r) /\
    Forall (fun c => (exists l, In l (running W r) /\ fp l = fst c) /\
       forall l, (l < W)%nat -> (snd c l = true <-> full l = true /\ fp l = fst c)) calls /\
    NoDup (map fst calls)).
  1,3: (intros E0; exists 1%nat, s, res, []; cbn [varying_call_loop]; unfold b_any;
       rewrite movmsk_is_zero, E0; cbn; repeat split; auto; constructor).
  { apply BASE. destruct (running W r); [reflexivity|cbn in Hlen; lia]. }
  destruct (running W r) as [|f t] eqn:E; [apply BASE; reflexivity|].
  rewrite <- E. clear BASE.
  assert (Inf : In f (running W r)) by (rewrite E; now left).
  pose proof (proj1 (running_In W r f) Inf) as [Hf Hrf].
  assert (Inff : In f (running W full)) by (apply running_In; split; auto).
  set (p := fp f).
  set (cm := fun l : nat => r l && (p =? fp l)).
  set (cem := fun l : nat => cm l && fm l).
  set (r' := fun l => r l && negb (cm l)).
  assert (CEM : forall l, (l < W)%nat -> cem l = cm l).
  { intros l Hl. unfold cem, cm. destruct (r l) eqn:Rl; [|reflexivity]. cbn.
    specialize (Hsub l Hl Rl). unfold full in Hsub. apply andb_true_iff in Hsub as [_ ->]. apply andb_true_r. }
  assert (CM : forall l, (l < W)%nat -> (cem l = true <-> full l = true /\ fp l = p)).
  { intros l Hl. rewrite CEM by exact Hl. unfold cm. split.
    - intros H. apply andb_true_iff in H as [H1 H2]. apply Z.eqb_eq in H2. auto.
    - intros [H1 H2]. rewrite H2, Z.eqb_refl, andb_true_r. apply (Hcl f l); auto.
      { rewrite E in Inf. exact Inf. } apply running_In; auto. }
  assert (PERM : Permutation (running W cem ++ running W r') (running W r)).
  { rewrite (running_ext W cem cm CEM). symmetry. unfold r', cm.
    rewrite (running_ext W (fun l => r l && negb (r l && (p =? fp l))) (fun l => r l && negb (p =? fp l))).
    2:{ intros l _. destruct (r l); reflexivity. }
    unfold running. apply (filter_partition r (fun l => p =? fp l)). }
  destruct (IH r' (fst (call p cem s)) (fun l => if cm l then Some (snd (call p cem s) l) else res l))
    as (fuel & s' & res' & calls & H1 & H2 & H3 & H4 & H5 & H6).
  { assert (L : length (running W cem ++ running W r') = length (running W r)) by (apply Permutation_length; exact PERM).
    rewrite app_length, E in L.
    assert (In f (running W cem)) by (apply running_In; split; [exact Hf|]; apply CM; auto; split; auto).
    destruct (running W cem); [contradiction|]. cbn in L, Hlen |- *. lia. }
  { intros l Hl H. apply Hsub; auto. unfold r' in H. apply andb_true_iff in H. apply H. }
  { intros l l' Hl Hl' V. apply running_In in Hl as [HlW Hl]. unfold r', cm in Hl |- *.
    apply andb_true_iff in Hl as [Rl Nl]. rewrite Rl in Nl. cbn in Nl. rewrite <- V. 
    rewrite (Hcl l l'); auto. rewrite <- E. apply running_In; auto. }
  exists (S fuel), s', res', ((p, cem) :: calls).
  assert (Hres : forall l, (l < W)%nat ->
     (if cm l then Some (snd (call p cem s) l) else res l) = (if cem l then Some (snd (call p cem s) l) else res l)).
  { intros l Hl. now rewrite CEM. }
  split.
  { cbn [varying_call_loop]. unfold b_any. rewrite movmsk_is_zero, E. cbn [negb].
    rewrite (cttz_running W r f t) by auto.
    rewrite wraps_id by (try lia; unfold in_s; change (2 ^ (32 - 1)) with 2147483648; lia).
    unfold extract. destruct (Z.leb_spec 0 (Z.of_nat f)); [|lia].
    destruct (Z.ltb_spec (Z.of_nat f) (Z.of_nat W)); [|lia]. cbn [andb]. rewrite Nat2Z.id.
    cbv zeta. fold p.
    change (fun l : nat => r l && (p =? fp l) && fm l) with cem.
    destruct (call p cem s) as [s1 r1]. cbn [fst snd] in H1. unfold r', cm in H1. rewrite H1. reflexivity. }
  split.
  { rewrite H2. cbn [exec_calls]. apply (exec_calls_ext calls _ _ _ f). now apply Hres. }
  split.
  { intros l Hl. rewrite H3 by exact Hl. cbn [exec_calls]. apply exec_calls_ext. now apply Hres. }
  split.
  { cbn [flat_map snd]. rewrite H4. exact PERM. }
  split.
  - constructor; [split; [exists f; auto|exact CM]|].
    eapply Forall_impl; [|exact H5]. intros c [(l & L1 & L2) C2]. split; [|exact C2].
    exists l. split; [|exact L2]. apply running_In in L1 as [L0 L1]. apply running_In. split; [exact L0|].
    unfold r' in L1. apply andb_true_iff in L1. apply L1.
  - cbn [map fst]. constructor; [|exact H6]. intros Hin. apply in_map_iff in Hin as (c & C1 & C2).
    rewrite Forall_forall in H5. destruct (H5 c C2) as [(l & L1 & L2) _].
    apply running_In in L1 as [L0 L1]. assert (PL : p =? fp l = true) by (apply Z.eqb_eq; rewrite L2; exact (eq_sym C1)).
    unfold r', cm in L1. rewrite PL in L1.
    destruct (r l); cbn in L1; discriminate.
Qed.

Theorem varying_call_spec s :
  exists fuel s' res calls, varying_call call W im fm fp fuel s = Some (s', res, calls) /\
    s' = fst (exec_calls call calls s (fun _ => None)) /\
    (forall l, (l < W)%nat -> res l = snd (exec_calls call calls s (fun _ => None)) l) /\
    Permutation (flat_map (fun c => running W (snd c)) calls) (running W full) /\
    Forall (fun c => (exists l, In l (running W full) /\ fp l = fst c) /\
       forall l, (l < W)%nat -> (snd c l = true <-> full l = true /\ fp l = fst c)) calls /\
    NoDup (map fst calls).
Proof.
  apply (call_loop (length (running W full)) full s (fun _ => None)); auto.
  intros l l' _ H _. apply running_In in H. apply H.
Qed.

(* an active lane's result is the one its own function returned *)
Lemma exec_calls_lane calls : forall s res l,
  (exists c, In c calls /\ snd c l = true) -> 
  NoDup (map fst calls) ->
  (forall c c', In c calls -> In c' calls -> snd c l = true -> snd c' l = true -> fst c = fst c') ->
  exists c s0, In c calls /\ snd c l = true /\ 
    snd (exec_calls call calls s res) l = Some (snd (call (fst c) (snd c) s0) l).
Proof.
  induction calls as [|[p m] calls IH]; intros s res l (c & Hc & Hm) ND U; [destruct Hc|].
  destruct Hc as [Hc|Hc].
  - subst c. cbn in Hm. exists (p, m), s. split; [now left|]. split; [exact Hm|]. cbn [exec_calls].
    assert (N : forall c, In c calls -> snd c l = false).
    { intros c Hc. destruct (snd c l) eqn:X; [|reflexivity]. exfalso.
      inversion ND as [|? ? H1 H2]; subst. apply H1. cbn [fst].
      apply in_map_iff. exists c. split; [|exact Hc].
      symmetry. exact (U (p, m) c (or_introl eq_refl) (or_intror Hc) Hm X). }
    assert (KEEP : forall calls s res, (forall c, In c calls -> snd c l = false) ->
      snd (exec_calls call calls s res) l = res l).
    { clear. induction calls as [|[p m] calls IH]; intros s res N; cbn; [reflexivity|].
      rewrite IH by (intros; apply N; now right). pose proof (N (p, m) (or_introl eq_refl)) as X. cbn in X.
      now rewrite X. }
    rewrite KEEP by exact N. now rewrite Hm.
  - inversion ND as [|? ? H1 H2]; subst. cbn [exec_calls].
    destruct (IH (fst (call p m s)) (fun l => if m l then Some (snd (call p m s) l) else res l) l)
      as (c' & s0 & A1 & A2 & A3); auto.
    { eauto. } { intros; eapply U; auto; now right. }
    exists c', s0. split; [now right|]. auto.
Qed.
End Call.
