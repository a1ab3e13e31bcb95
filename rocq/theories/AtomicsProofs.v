(** Proofs about the atomics. *)
From Coq Require Import ZArith List Bool Permutation Lia.
From Verif Require Import Bits LanesModel LanesSpec LanesProofs ForeachModel ForeachProofs4 AtomicsModel AtomicsSpec.
Import ListNotations.
Local Open Scope Z_scope.

Lemma write_mupd {A} (m : Z -> A) p x q : mupd m p x q = write m p x q.
Proof. reflexivity. Qed.

Lemma issued_first {A} (ptr : nat -> Z) (op : nat -> A -> A) e l s m m' r :
  issued ptr op (([], l) :: s) (act e m) m' r -> issued ptr op ((e, l) :: s) m m' r.
Proof. intros H. inversion H; subst. constructor. assumption. Qed.

(* what one atomic access takes from the environment *)
Definition taken {A} (w : world A) : actions A := match wenv w with [] => [] | f :: _ => [f] end.
Lemma taken_env {A} (w : world A) : wenv w = taken w ++ wenv (interfere w).
Proof. unfold taken, interfere. destruct w as [m [|f e]]; reflexivity. Qed.
Lemma taken_mem {A} (w : world A) : wmem (interfere w) = act (taken w) (wmem w).
Proof. unfold taken, interfere. destruct w as [m [|f e]]; reflexivity. Qed.
Lemma taken_typed {A} (T : A -> Prop) (w : world A) : typed T (wmem w) -> well_typed_actions T (wenv w) ->
  typed T (wmem (interfere w)).
Proof.
  unfold interfere, well_typed_actions. destruct w as [m [|f e]]; cbn; intros H1 H2; [assumption|].
  inversion H2; subst. auto.
Qed.

(** ** Integer operations done as one access *)

Section Assoc.
Context {A : Type} (T : A -> Prop) (op : A -> A -> A) (id : A).
Hypothesis op_T : forall a b, T a -> T b -> T (op a b).
Hypothesis id_T : T id.
Hypothesis op_assoc : forall a b c, T a -> T b -> T c -> op (op a b) c = op a (op b c).
Hypothesis op_id_r : forall a, T a -> op a id = a.
Hypothesis op_id_l : forall a, T a -> op id a = a.
Context (W : nat) (HW : (0 < W)%nat) (mask : nat -> bool) (val : nat -> A) (p : Z).
Hypothesis val_T : forall l, (l < W)%nat -> mask l = true -> T (val l).
Context (v : nat -> A).
Hypothesis v_eq : forall l, v l = if mask l then val l else id.

Definition pre (i : nat) : A := fold_left (fun a j => op a (v j)) (seq 0 i) id.

Lemma pre_S i : pre (S i) = op (pre i) (v i).
Proof. unfold pre. rewrite seq_S, fold_left_app. reflexivity. Qed.

Lemma v_T l : (l < W)%nat -> T (v l).
Proof. intros H. rewrite v_eq. destruct (mask l) eqn:E; auto. Qed.

Lemma pre_T i : (i <= W)%nat -> T (pre i).
Proof.
  induction i as [|i IH]; intros H; [exact id_T|]. rewrite pre_S. apply op_T; [apply IH; lia|apply v_T; lia].
Qed.

Lemma assoc_state k : (S k <= W)%nat ->
  let st := fold_left (fun st i => assoc_loop op v i st) (seq 1 k) (v O, fun _ => id) in
  fst st = pre (S k) /\ forall l, (l <= k)%nat -> snd st l = pre l.
Proof.
  induction k as [|k IH]; intros H; cbv zeta.
  - cbn [seq fold_left fst snd]. split.
    + rewrite pre_S. unfold pre. cbn. symmetry. apply op_id_l. apply v_T. lia.
    + intros l Hl. replace l with O by lia. reflexivity.
  - destruct IH as [I1 I2]; [lia|]. rewrite seq_S, fold_left_app. cbn [fold_left].
    unfold assoc_loop at 1 3. cbn [fst snd]. split.
    + rewrite I1. symmetry. apply pre_S.
    + intros l Hl. unfold insert. destruct (Nat.eqb_spec l (1 + k)).
      * subst. rewrite I1. reflexivity.
      * apply I2. lia.
Qed.

Lemma assoc_issued x : T x -> forall k a m, (a + k <= W)%nat -> m p = op x (pre a) ->
  exists m1 rets,
    issued (fun _ => p) (fun l old => op old (val l)) (map (fun l => ([], l)) (filter mask (seq a k))) m m1 rets /\
    (forall q, m1 q = if q =? p then op x (pre (a + k)) else m q) /\
    (forall l r, In (l, r) rets -> (a <= l < a + k)%nat /\ mask l = true /\ r = op x (pre l)).
Proof.
  intros Tx. induction k as [|k IH]; intros a m Hk Hm.
  - exists m, []. split; [constructor|]. split; [|intros l r []].
    intros q. rewrite Nat.add_0_r. destruct (Z.eqb_spec q p); [subst|]; auto.
  - cbn [seq filter]. destruct (mask a) eqn:E.
    + destruct (IH (S a) (write m p (op (m p) (val a)))) as (m1 & rets & H1 & H2 & H3); [lia| |].
      { unfold write. rewrite Z.eqb_refl, Hm, pre_S.
        rewrite op_assoc; [|exact Tx|apply pre_T; lia|apply val_T; [lia|exact E]]. 
        rewrite v_eq, E. reflexivity. }
      exists m1, ((a, m p) :: rets). split; [cbn [map]; apply (issued_cons (fun _ => p) (fun l old => op old (val l)) [] a); exact H1|].
      split.
      * intros q. rewrite H2. replace (S a + k)%nat with (a + S k)%nat by lia.
        destruct (Z.eqb_spec q p); [reflexivity|]. unfold write. destruct (Z.eqb_spec q p); [contradiction|reflexivity].
      * intros l r [H|H].
        -- injection H as <- <-. split; [lia|]. auto.
        -- apply H3 in H. intuition lia.
    + destruct (IH (S a) m) as (m1 & rets & H1 & H2 & H3); [lia| |].
      { rewrite Hm, pre_S, v_eq, E. rewrite op_id_r by (apply pre_T; lia). reflexivity. }
      exists m1, rets. split; [exact H1|]. split.
      * intros q. rewrite H2. replace (S a + k)%nat with (a + S k)%nat by lia. reflexivity.
      * intros l r H. apply H3 in H. intuition lia.
Qed.

Theorem assoc_serial w rop ret :
  typed T (wmem w) -> well_typed_actions T (wenv w) ->
  (forall a b, T a -> T b -> rop a b = op b a) ->
  let st := fold_left (fun st i => assoc_loop op v i st) (seq 1 (W - 1)) (v O, fun _ => id) in
  let '(w', final) := atomicrmw (fun old => op old (fst st)) p w in
  (forall l, (l < W)%nat -> ret l = rop (snd st l) final) ->
  exists env, wenv w = env ++ wenv w' /\
    some_serial_order W mask (fun _ => p) (fun l old => op old (val l)) env (wmem w) (wmem w')
      (fun l => Some (ret l)).
Proof.
  intros TM TE Hrop st. unfold atomicrmw. intros Hret.
  destruct (assoc_state (W - 1)) as [S1 S2]; [lia|]. fold st in S1, S2.
  replace (S (W - 1)) with W in S1 by lia.
  exists (taken w). cbn [wenv wmem]. split; [apply taken_env|].
  pose proof (taken_typed T w TM TE) as TI. set (m0 := wmem (interfere w)) in *.
  destruct (assoc_issued (m0 p) (TI p) W O m0) as (m1 & rets & H1 & H2 & H3); [lia| |].
  { unfold pre. cbn. symmetry. apply op_id_r. apply TI. }
  assert (RT : forall l r, In (l, r) rets -> Some (ret l) = Some r).
  { intros l r H. apply H3 in H as (B & M & ->). f_equal. rewrite Hret by lia.
    rewrite S2 by lia. rewrite Hrop; [reflexivity|apply pre_T; lia|apply TI]. }
  unfold some_serial_order, running.
  destruct (filter mask (seq 0 W)) as [|f t] eqn:F.
  - exists [], (wmem w), [], (taken w). split; [constructor|]. split; [reflexivity|].
    split; [constructor|]. split; [|intros l r []].
    intros q. cbn [map] in H1. inversion H1; subst. specialize (H2 q). rewrite <- taken_mem. fold m0.
    unfold mupd. rewrite S1. destruct (Z.eqb_spec q p); [subst; auto|reflexivity].
  - exists ((taken w, f) :: map (fun l => ([], l)) t), m1, rets, [].
    split; [cbn; rewrite map_map; cbn; rewrite map_id; reflexivity|].
    split.
    { cbn. rewrite map_map. cbn. rewrite app_nil_r.
      replace (List.concat (map (fun _ : nat => @nil ((Z -> A) -> Z -> A)) t)) with (@nil ((Z -> A) -> Z -> A)).
      - now rewrite app_nil_r.
      - clear. induction t; cbn; auto. }
    split; [|split; [|exact RT]].
    + apply issued_first. rewrite <- taken_mem. fold m0. exact H1.
    + intros q. unfold act. cbn [fold_left]. rewrite H2. unfold mupd. rewrite S1. reflexivity.
Qed.
End Assoc.

(** ** One access per instance *)

Definition appends {A} (w w' : world A) (env : actions A) : Prop := wenv w = env ++ wenv w'.

Section Loop.
Context {A : Type} (W : nat) (HW : (W <= 64)%nat) (mask : nat -> bool).

Definition after (ptr : nat -> Z) (f : nat -> A -> A) (l : nat) (s : world A * gang (option A))
  : world A * gang (option A) :=
  let '(w', r) := atomicrmw (f l) (ptr l) (fst s) in (w', fun k => if Nat.eqb k l then Some r else snd s k).

Lemma fold_after_serial ptr f : forall ls w ret, NoDup ls ->
  exists sched rets, map snd sched = ls /\
    wenv w = List.concat (map fst sched) ++ wenv (fst (fold_left (fun s l => after ptr f l s) ls (w, ret))) /\
    issued ptr f sched (wmem w) (wmem (fst (fold_left (fun s l => after ptr f l s) ls (w, ret)))) rets /\
    (forall l r, In (l, r) rets -> In l ls /\ snd (fold_left (fun s l => after ptr f l s) ls (w, ret)) l = Some r) /\
    (forall l, ~ In l ls -> snd (fold_left (fun s l => after ptr f l s) ls (w, ret)) l = ret l).
Proof.
  induction ls as [|x ls IH]; intros w ret ND.
  - exists [], []. cbn. split; [reflexivity|]. split; [reflexivity|]. split; [constructor|]. split; [intros ? ? []|auto].
  - inversion ND as [|? ? Nx ND']; subst. cbn [fold_left].
    unfold after at 2 4 6 8. unfold atomicrmw. cbn [fst snd].
    set (w1 := World (mupd (wmem (interfere w)) (ptr x) (f x (wmem (interfere w) (ptr x)))) (wenv (interfere w))).
    set (ret1 := fun k => if Nat.eqb k x then Some (wmem (interfere w) (ptr x)) else ret k).
    destruct (IH w1 ret1 ND') as (sched & rets & H1 & H2 & H3 & H4 & H5).
    exists ((taken w, x) :: sched), ((x, wmem (interfere w) (ptr x)) :: rets).
    split; [cbn; now rewrite H1|]. split.
    { rewrite (taken_env w). cbn [map fst]. change (List.concat (taken w :: map fst sched)) with (taken w ++ List.concat (map fst sched)).
      rewrite <- app_assoc. f_equal. exact H2. }
    split.
    { rewrite taken_mem. constructor. unfold w1 in H3 at 1. cbn [wmem] in H3. rewrite taken_mem in H3. exact H3. }
    split.
    + intros l r [H|H].
      * injection H as <- <-. split; [now left|]. rewrite H5 by exact Nx. unfold ret1. now rewrite Nat.eqb_refl.
      * apply H4 in H as [H H']. split; [now right|exact H'].
    + intros l Hl. rewrite H5 by (intros Q; apply Hl; now right). unfold ret1.
      destruct (Nat.eqb_spec l x); [subst; exfalso; apply Hl; now left|reflexivity].
Qed.

Lemma fold_after_some_serial ptr f w :
  let r := fold_left (fun s l => after ptr f l s) (running W mask) (w, fun _ => None) in
  exists env, wenv w = env ++ wenv (fst r) /\
    some_serial_order W mask ptr f env (wmem w) (wmem (fst r)) (snd r).
Proof.
  destruct (fold_after_serial ptr f (running W mask) w (fun _ => None)) as (sched & rets & H1 & H2 & H3 & H4 & _).
  { unfold running. apply NoDup_filter, seq_NoDup. }
  cbv zeta. exists (List.concat (map fst sched)). split; [exact H2|].
  exists sched, (wmem (fst (fold_left (fun s l => after ptr f l s) (running W mask) (w, fun _ => None)))), rets, [].
  split; [now rewrite H1|]. split; [apply app_nil_r|]. split; [exact H3|]. split; [reflexivity|].
  intros l r Hin. apply H4 in Hin. tauto.
Qed.

(* foreach_active visits the running instances in order; its body keeps the result pointwise *)
Lemma foreach_active_events : running W mask <> [] ->
  exists fuel evs, foreach_active W (fun _ => true) mask fuel = Some (evs, fun _ => true) /\
    map av_index evs = map Z.of_nat (running W mask) /\
    Forall (fun ev => forall l, (l < W)%nat -> (av_mask ev l = true <-> Z.of_nat l = av_index ev)) evs.
Proof.
  intros H. destruct (foreach_active_spec W (fun _ => true) mask HW) as (fuel & evs & H1 & H2 & H3).
  - exact H.
  - exists fuel, evs. auto.
Qed.

Lemma foreach_active_mono fuel fuel' r : foreach_active W (fun _ => true) mask fuel = Some r ->
  (fuel <= fuel')%nat -> foreach_active W (fun _ => true) mask fuel' = Some r.
Proof.
  unfold foreach_active. generalize (movmsk W (fun l => true && mask l)) as rem. revert fuel' r.
  assert (G : forall fuel fuel' rem evs, foreach_active_loop W mask fuel rem = Some evs -> (fuel <= fuel')%nat ->
            foreach_active_loop W mask fuel' rem = Some evs).
  { clear. induction fuel as [|n IH]; intros fuel' rem evs H L; [discriminate|].
    destruct fuel' as [|n']; [lia|]. cbn [foreach_active_loop] in *.
    destruct (64 <=? cttz64 rem); [discriminate|].
    destruct (_ =? 0); [exact H|].
    destruct (foreach_active_loop W mask n _) as [evs'|] eqn:E; [|discriminate].
    rewrite (IH n' _ evs' E) by lia. exact H. }
  intros fuel' r rem H L. destruct (foreach_active_loop W mask fuel rem) as [evs|] eqn:E; [|discriminate].
  rewrite (G _ _ _ _ E L). exact H.
Qed.

(* the state after the body for instance l, as the loop computes it, agrees with [after] on the gang *)
Definition agree {X} (s s' : X * gang (option A)) : Prop :=
  fst s = fst s' /\ forall l, (l < W)%nat -> snd s l = snd s' l.

Lemma insert_masked_agree (m : gang bool) (r r' : gang (option A)) l x : (l < W)%nat ->
  (forall k, (k < W)%nat -> (m k = true <-> Z.of_nat k = Z.of_nat l)) ->
  (forall k, (k < W)%nat -> r k = r' k) ->
  forall k, (k < W)%nat -> insert_masked m r (Z.of_nat l) x k = if Nat.eqb k l then Some x else r' k.
Proof.
  intros Hl Hm E k Hk. unfold insert_masked, insert. rewrite Nat2Z.id. destruct (m k) eqn:M.
  - apply Hm in M; [|exact Hk]. assert (k = l) by lia. subst. now rewrite Nat.eqb_refl.
  - destruct (Nat.eqb_spec k l); [|auto]. subst. assert (m l = true) by (apply Hm; auto). congruence.
Qed.

Lemma extract_in {X} (g : gang X) l : (l < W)%nat -> extract W g (Z.of_nat l) = Some (g l).
Proof.
  intros H. unfold extract. destruct (Z.leb_spec 0 (Z.of_nat l)); [|lia].
  destruct (Z.ltb_spec (Z.of_nat l) (Z.of_nat W)); [|lia]. cbn. now rewrite Nat2Z.id.
Qed.

Lemma run_events_global ptr (f : nat -> A -> A) : forall ls evs s s', 
  (forall l, In l ls -> (l < W)%nat) ->
  map av_index evs = map Z.of_nat ls ->
  Forall (fun ev => forall l, (l < W)%nat -> (av_mask ev l = true <-> Z.of_nat l = av_index ev)) evs ->
  agree s s' ->
  exists r, run_events (per_instance W ptr f) evs s = Some r /\
    agree r (fold_left (fun s l => after ptr f l s) ls s').
Proof.
  induction ls as [|x ls IH]; intros evs s s' Hls Hix HF HA.
  - destruct evs; [|discriminate]. exists s. auto.
  - destruct evs as [|ev evs]; [discriminate|]. cbn in Hix. injection Hix as Hx Hix.
    inversion HF as [|? ? Hm HF']; subst. cbn [run_events fold_left].
    assert (Hxw : (x < W)%nat) by (apply Hls; now left).
    unfold per_instance at 1. rewrite Hx, !extract_in by exact Hxw.
    unfold atomicrmw. destruct HA as [HA1 HA2]. 
    apply IH; [intros; apply Hls; now right|exact Hix|exact HF'|].
    unfold after, atomicrmw. rewrite HA1. split; [reflexivity|].
    cbn [snd]. intros k Hk. apply insert_masked_agree; auto.
    intros j Hj. rewrite Hm by exact Hj. now rewrite Hx.
Qed.

Theorem loop_global ptr (f : nat -> A -> A) w : running W mask <> [] ->
  exists N w' ret, (forall fuel, (N <= fuel)%nat ->
      foreach_active_do W mask (per_instance W ptr f) fuel (w, fun _ => None) = Some (w', ret)) /\
    exists env, wenv w = env ++ wenv w' /\
      some_serial_order W mask ptr f env (wmem w) (wmem w') ret.
Proof.
  intros Hne. destruct (foreach_active_events Hne) as (N & evs & H1 & H2 & H3).
  destruct (run_events_global ptr f (running W mask) evs (w, fun _ => None) (w, fun _ => None))
    as ([w' ret] & R & [A1 A2]); auto.
  { intros l Hl. apply running_In in Hl. tauto. }
  { split; auto. }
  exists N, w', ret. split.
  - intros fuel Hf. unfold foreach_active_do. rewrite (foreach_active_mono _ _ _ H1 Hf). exact R.
  - destruct (fold_after_some_serial ptr f w) as (env & E1 & sched & m1 & rets & last & S1 & S2 & S3 & S4 & S5).
    cbn [fst snd] in A1, A2.
    exists env. split; [rewrite A1; exact E1|]. exists sched, m1, rets, last.
    split; [exact S1|]. split; [exact S2|]. split; [exact S3|]. split; [intros q; rewrite A1; apply S4|].
    intros l r Hin. rewrite A2; [now apply S5|].
    (* l occurs in the schedule *)
    assert (In l (map snd sched)).
    { clear - S3 Hin. revert Hin. induction S3; [intros []|].
      intros [H|H]; [injection H as <- _; now left|]. right. auto. }
    assert (In l (running W mask)) by (eapply Permutation_in; eauto).
    apply running_In in H0. tauto.
Qed.

(** the same without other threads, and with plain accesses *)
Definition lafter (ptr : nat -> Z) (f : nat -> A -> A) (l : nat) (s : (Z -> A) * gang (option A)) :=
  (mupd (fst s) (ptr l) (f l (fst s (ptr l))), fun k => if Nat.eqb k l then Some (fst s (ptr l)) else snd s k).

Lemma fold_lafter ptr f : forall ls m ret, NoDup ls ->
  exists rets,
    issued ptr f (map (fun l => ([], l)) ls) m (fst (fold_left (fun s l => lafter ptr f l s) ls (m, ret))) rets /\
    (forall l r, In (l, r) rets -> In l ls /\ snd (fold_left (fun s l => lafter ptr f l s) ls (m, ret)) l = Some r) /\
    (forall l, ~ In l ls -> snd (fold_left (fun s l => lafter ptr f l s) ls (m, ret)) l = ret l).
Proof.
  induction ls as [|x ls IH]; intros m ret ND.
  - exists []. cbn. split; [constructor|]. split; [intros ? ? []|auto].
  - inversion ND as [|? ? Nx ND']; subst. cbn [fold_left map].
    unfold lafter at 2 4 6. cbn [fst snd].
    destruct (IH (mupd m (ptr x) (f x (m (ptr x)))) (fun k => if Nat.eqb k x then Some (m (ptr x)) else ret k) ND')
      as (rets & H3 & H4 & H5).
    exists ((x, m (ptr x)) :: rets). split; [|split].
    + apply (issued_cons ptr f [] x). exact H3.
    + intros l r [H|H].
      * injection H as <- <-. split; [now left|]. rewrite H5 by exact Nx. now rewrite Nat.eqb_refl.
      * apply H4 in H as [H H']. split; [now right|exact H'].
    + intros l Hl. rewrite H5 by (intros Q; apply Hl; now right).
      destruct (Nat.eqb_spec l x); [subst; exfalso; apply Hl; now left|reflexivity].
Qed.

Lemma run_events_local ptr (f : nat -> A -> A) : forall ls evs s s', 
  (forall l, In l ls -> (l < W)%nat) ->
  map av_index evs = map Z.of_nat ls ->
  Forall (fun ev => forall l, (l < W)%nat -> (av_mask ev l = true <-> Z.of_nat l = av_index ev)) evs ->
  agree s s' ->
  exists r, run_events (local_step W ptr f) evs s = Some r /\
    agree r (fold_left (fun s l => lafter ptr f l s) ls s').
Proof.
  induction ls as [|x ls IH]; intros evs s s' Hls Hix HF HA.
  - destruct evs; [|discriminate]. exists s. auto.
  - destruct evs as [|ev evs]; [discriminate|]. cbn in Hix. injection Hix as Hx Hix.
    inversion HF as [|? ? Hm HF']; subst. cbn [run_events fold_left].
    assert (Hxw : (x < W)%nat) by (apply Hls; now left).
    unfold local_step at 1. rewrite Hx, !extract_in by exact Hxw.
    destruct HA as [HA1 HA2]. 
    apply IH; [intros; apply Hls; now right|exact Hix|exact HF'|].
    unfold lafter. rewrite HA1. split; [reflexivity|].
    cbn [snd]. intros k Hk. apply insert_masked_agree; auto.
    intros j Hj. rewrite Hm by exact Hj. now rewrite Hx.
Qed.

Theorem loop_local ptr (f : nat -> A -> A) m : running W mask <> [] ->
  exists N m' ret, (forall fuel, (N <= fuel)%nat ->
      foreach_active_do W mask (local_step W ptr f) fuel (m, fun _ => None) = Some (m', ret)) /\
    in_instance_order W mask ptr f m m' ret.
Proof.
  intros Hne. destruct (foreach_active_events Hne) as (N & evs & H1 & H2 & H3).
  destruct (run_events_local ptr f (running W mask) evs (m, fun _ => None) (m, fun _ => None))
    as ([m' ret] & R & [A1 A2]); auto.
  { intros l Hl. apply running_In in Hl. tauto. }
  { split; auto. }
  exists N, m', ret. split.
  - intros fuel Hf. unfold foreach_active_do. rewrite (foreach_active_mono _ _ _ H1 Hf). exact R.
  - destruct (fold_lafter ptr f (running W mask) m (fun _ => None)) as (rets & S3 & S4 & _).
    { unfold running. apply NoDup_filter, seq_NoDup. }
    cbn [fst snd] in A1, A2.
    exists m', rets. rewrite A1. split; [exact S3|]. split; [reflexivity|].
    intros l r Hin. apply S4 in Hin as [Hl Hr]. rewrite A2; [exact Hr|]. apply running_In in Hl. tauto.
Qed.

(** per_lane *)
Lemma per_lane_ok {St} (body : nat -> St -> St) : forall n i s, (i + n <= 64)%nat ->
  (i + n = W)%nat ->
  per_lane (movmsk W mask) body n i (wrapu 64 (2 ^ Z.of_nat i)) s =
  fold_left (fun s l => body l s) (filter mask (seq i n)) s.
Proof.
  induction n as [|n IH]; intros i s Hi HiW; [reflexivity|].
  cbn [per_lane seq filter].
  assert (P : wrapu 64 (2 ^ Z.of_nat i) = 2 ^ Z.of_nat i).
  { apply wrapu_id. unfold in_u. split; [apply Z.pow_nonneg; lia|]. apply Z.pow_lt_mono_r; lia. }
  rewrite P.
  assert (D : (Z.land (movmsk W mask) (2 ^ Z.of_nat i) =? 2 ^ Z.of_nat i) = mask i).
  { assert (M : Z.testbit (movmsk W mask) (Z.of_nat i) = mask i).
    { rewrite movmsk_testbit by lia. rewrite Nat2Z.id. destruct (Z.ltb_spec (Z.of_nat i) (Z.of_nat W)); [reflexivity|lia]. }
    apply eq_true_iff_eq. rewrite Z.eqb_eq. rewrite <- M. split.
    - intros E. assert (X : Z.testbit (Z.land (movmsk W mask) (2 ^ Z.of_nat i)) (Z.of_nat i) = true).
      { rewrite E. apply Z.pow2_bits_true. lia. }
      rewrite Z.land_spec in X. apply andb_true_iff in X. tauto.
    - intros E. apply Z.bits_inj'. intros j Hj. rewrite Z.land_spec, Z.pow2_bits_eqb by lia.
      destruct (Z.eqb_spec (Z.of_nat i) j); [subst; rewrite E; reflexivity|apply andb_false_r]. }
  rewrite D.
  replace (wrapu 64 (2 ^ Z.of_nat i * 2)) with (wrapu 64 (2 ^ Z.of_nat (S i))).
  2:{ f_equal. rewrite Nat2Z.inj_succ, Z.pow_succ_r by lia. lia. }
  rewrite IH by lia. destruct (mask i); reflexivity.
Qed.

Theorem per_lane_atomics_serial p (f : nat -> A -> A) w :
  exists env, wenv w = env ++ wenv (fst (per_lane_atomics W mask p f w)) /\
    some_serial_order W mask (fun _ => p) f env (wmem w) (wmem (fst (per_lane_atomics W mask p f w)))
      (snd (per_lane_atomics W mask p f w)).
Proof.
  pose proof (per_lane_ok (fun i s => let '(w', r) := atomicrmw (f i) p (fst s) in (w', insert (snd s) i (Some r)))
    W O (w, fun _ => None)) as H. 
  unfold per_lane_atomics. change 1 with (wrapu 64 (2 ^ Z.of_nat 0)). rewrite H by lia.
  exact (fold_after_some_serial (fun _ => p) f w).
Qed.
End Loop.
