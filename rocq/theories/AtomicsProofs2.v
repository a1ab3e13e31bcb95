(** Swap, min/max and the instances of the associative operations. *)
From Coq Require Import ZArith List Bool Permutation Lia.
From Verif Require Import Bits LanesModel LanesSpec LanesProofs ForeachModel ForeachProofs4 AtomicsModel AtomicsSpec AtomicsProofs.
Import ListNotations.
Local Open Scope Z_scope.

(** ** Instances *)

Lemma testbit_sign x n : 0 < n -> in_s n x -> forall i, n - 1 <= i -> Z.testbit x i = (x <? 0).
Proof.
  intros Hn [H1 H2] i Hi. destruct (Z.ltb_spec x 0) as [L|L].
  -    assert (X : Z.testbit (Z.lnot x) i = false).
    { destruct (Z.eq_dec (Z.lnot x) 0) as [->|N]; [apply Z.bits_0|].
      assert (H : 0 <= Z.lnot x < 2 ^ (n - 1)) by (unfold Z.lnot; lia).
      apply Z.bits_above_log2; [lia|]. apply Z.log2_lt_pow2; [lia|].
      eapply Z.lt_le_trans; [apply H|]. apply Z.pow_le_mono_r; lia. }
    assert (0 <= i \/ i < 0) as [P|P] by lia; [|lia].
    rewrite Z.lnot_spec in X by lia. now apply negb_false_iff in X.
  - destruct (Z.eq_dec x 0) as [->|N]; [apply Z.bits_0|].
    apply Z.bits_above_log2; [lia|]. apply Z.log2_lt_pow2; [lia|].
    eapply Z.lt_le_trans; [apply H2|]. apply Z.pow_le_mono_r; lia.
Qed.

Lemma in_s_bits x n : 0 < n -> (forall i, n - 1 <= i -> Z.testbit x i = Z.testbit x (n - 1)) -> in_s n x.
Proof.
  intros Hn H. unfold in_s.
  destruct (Z.testbit x (n - 1)) eqn:E.
  - (* negative *)
    assert (Y : in_u (n - 1) (Z.lnot x)).
    { apply in_u_testbit; [lia| |].
      - destruct (Z.ltb_spec (Z.lnot x) 0) as [L|L]; [|lia]. exfalso.
        assert (0 <= x) by (unfold Z.lnot in L; lia).
        destruct (Z.eq_dec x 0) as [->|N]; [rewrite Z.bits_0 in E; discriminate|].
        specialize (H (Z.max (n - 1) (Z.log2 x + 1))). rewrite Z.bits_above_log2 in H by lia.
        specialize (H ltac:(lia)). discriminate.
      - intros i Hi. rewrite Z.lnot_spec by lia. rewrite H by lia. reflexivity. }
    destruct Y as [Y1 Y2]. unfold Z.lnot in *. lia.
  - assert (Y : in_u (n - 1) x).
    { apply in_u_testbit; [lia| |].
      - destruct (Z.ltb_spec x 0) as [L|L]; [|lia]. exfalso.
        pose proof (Z.bits_above_log2_neg x (Z.max (n - 1) (Z.log2 (Z.pred (- x)) + 1)) L ltac:(lia)) as Q.
        rewrite H in Q by lia. discriminate.
      - intros i Hi. apply H. lia. }
    destruct Y as [Y1 Y2]. pose proof (pow2_pos (n - 1)). lia.
Qed.

Lemma in_s_bitop (f : Z -> Z -> Z) (b : bool -> bool -> bool) n x y : 0 < n ->
  (forall x y i, 0 <= i -> Z.testbit (f x y) i = b (Z.testbit x i) (Z.testbit y i)) ->
  in_s n x -> in_s n y -> in_s n (f x y).
Proof.
  intros Hn Hf Hx Hy. apply in_s_bits; [exact Hn|]. intros i Hi. rewrite !Hf by lia.
  now rewrite (testbit_sign x n Hn Hx i), (testbit_sign x n Hn Hx (n - 1)),
    (testbit_sign y n Hn Hy i), (testbit_sign y n Hn Hy (n - 1)) by lia.
Qed.

Lemma wraps_add_r n x y : 0 < n -> wraps n (x + wraps n y) = wraps n (x + y).
Proof. intros H. rewrite Z.add_comm, wraps_add_l by exact H. now rewrite Z.add_comm. Qed.

(* the masking with bit operations in util.m4 is a select *)
Lemma valp_select (id x : Z) (b : bool) :
  Z.lor (Z.land x (if b then -1 else 0)) (Z.land id (Z.lxor (if b then -1 else 0) (-1))) = if b then x else id.
Proof.
  destruct b; cbn.
  - change (Z.lxor (-1) (-1)) with 0. rewrite Z.land_m1_r, Z.land_0_r, Z.lor_0_r. reflexivity.
  - change (Z.lxor 0 (-1)) with (-1). rewrite Z.land_0_r, Z.land_m1_r, Z.lor_0_l. reflexivity.
Qed.

Definition good_op (n : Z) (op : Z -> Z -> Z) (id : Z) : Prop :=
  (forall a b, in_s n a -> in_s n b -> in_s n (op a b)) /\ in_s n id /\
  (forall a b c, in_s n a -> in_s n b -> in_s n c -> op (op a b) c = op a (op b c)) /\
  (forall a b, in_s n a -> in_s n b -> op a b = op b a) /\ (forall a, in_s n a -> op a id = a).

Lemma good_add n : 0 < n -> good_op n (op_add n) 0.
Proof.
  intros Hn.
  unfold good_op, op_add. split; [intros; now apply wraps_range|].
  pose proof (pow2_pos (n - 1)).
  split; [unfold in_s; lia|]. split; [intros; rewrite wraps_add_l, wraps_add_r by exact Hn; f_equal; lia|].
  split; [intros; f_equal; lia|]. intros a Ha. rewrite Z.add_0_r. now apply wraps_id.
Qed.
Lemma good_or n : 0 < n -> good_op n op_or 0.
Proof.
  intros Hn.
  unfold good_op, op_or. pose proof (pow2_pos (n - 1)).
  split; [intros; eapply (in_s_bitop Z.lor orb); eauto; intros; apply Z.lor_spec|].
  split; [unfold in_s; lia|]. split; [intros; symmetry; apply Z.lor_assoc|].
  split; [intros; apply Z.lor_comm|]. intros. apply Z.lor_0_r.
Qed.
Lemma good_xor n : 0 < n -> good_op n op_xor 0.
Proof.
  intros Hn.
  unfold good_op, op_xor. pose proof (pow2_pos (n - 1)).
  split; [intros; eapply (in_s_bitop Z.lxor xorb); eauto; intros; apply Z.lxor_spec|].
  split; [unfold in_s; lia|]. split; [intros; apply Z.lxor_assoc|].
  split; [intros; apply Z.lxor_comm|]. intros. apply Z.lxor_0_r.
Qed.
Lemma good_and n : 0 < n -> good_op n op_and (-1).
Proof.
  intros Hn.
  unfold good_op, op_and. pose proof (pow2_pos (n - 1)).
  split; [intros; eapply (in_s_bitop Z.land andb); eauto; intros; apply Z.land_spec|].
  split; [unfold in_s; lia|]. split; [intros; symmetry; apply Z.land_assoc|].
  split; [intros; apply Z.land_comm|]. intros. apply Z.land_m1_r.
Qed.

Section Inst.
Context (n : Z) (Hn : 0 < n) (W : nat) (HW : (0 < W)%nat) (mask : nat -> bool) (val : nat -> Z) (p : Z)
  (w : world Z).
Hypothesis TV : forall l, (l < W)%nat -> mask l = true -> in_s n (val l).
Hypothesis TM : typed (in_s n) (wmem w).
Hypothesis TE : well_typed_actions (in_s n) (wenv w).

Lemma good_serial op id : good_op n op id ->
  forall v rop, (forall l, v l = if mask l then val l else id) ->
  (forall a b, in_s n a -> in_s n b -> rop a b = op b a) ->
  let st := fold_left (fun st i => assoc_loop op v i st) (seq 1 (W - 1)) (v O, fun _ => id) in
  let '(w', final) := atomicrmw (fun old => op old (fst st)) p w in
  exists env, wenv w = env ++ wenv w' /\
    some_serial_order W mask (fun _ => p) (fun l old => op old (val l)) env (wmem w) (wmem w')
      (fun l => Some (rop (snd st l) final)).
Proof.
  intros (G1 & G2 & G3 & G4 & G5) v rop Hv Hrop.
  pose proof (assoc_serial (in_s n) op id G1 G2 G3 G5) as S.
  assert (G6 : forall a, in_s n a -> op id a = a) by (intros a Ha; rewrite G4; auto).
  specialize (S G6 W HW mask val p TV v Hv w rop).
  cbv zeta in *. destruct (atomicrmw _ p w) as [w' final].
  specialize (S (fun l => rop (snd (fold_left (fun st i => assoc_loop op v i st) (seq 1 (W - 1)) (v O, fun _ => id)) l) final) TM TE Hrop).
  apply S. reflexivity.
Qed.

Lemma assoc_global_serial op id : good_op n op id ->
  let r := assoc_global op op op id W mask val p w in
  exists env, wenv w = env ++ wenv (fst r) /\
    some_serial_order W mask (fun _ => p) (fun l old => op old (val l)) env (wmem w) (wmem (fst r))
      (fun l => Some (snd r l)).
Proof.
  intros G. pose proof (good_serial op id G (fun l => if mask l then val l else id) op (fun _ => eq_refl)) as S.
  destruct G as (_ & _ & _ & G4 & _). specialize (S G4). cbv zeta in *. unfold assoc_global.
  cbv zeta. destruct (atomicrmw _ p w) as [w' final] eqn:E. cbn [fst snd]. exact S.
Qed.

Lemma assoc_global_m4_serial op id : good_op n op id ->
  let r := assoc_global_m4 op id W mask val p w in
  exists env, wenv w = env ++ wenv (fst r) /\
    some_serial_order W mask (fun _ => p) (fun l old => op old (val l)) env (wmem w) (wmem (fst r))
      (fun l => Some (snd r l)).
Proof.
  intros G. pose proof (good_serial op id G
    (fun l => Z.lor (Z.land (val l) (if mask l then -1 else 0)) (Z.land id (Z.lxor (if mask l then -1 else 0) (-1))))
    (fun a b => op b a) (fun l => valp_select id (val l) (mask l)) (fun _ _ _ _ => eq_refl)) as S.
  cbv zeta in *. unfold assoc_global_m4. cbv zeta.
  destruct (atomicrmw _ p w) as [w' final] eqn:E. cbn [fst snd]. exact S.
Qed.
End Inst.

(** ** min and max *)

Lemma fst_assoc_fold {A} (op : A -> A -> A) v : forall ls a e,
  fst (fold_left (fun st i => assoc_loop op v i st) ls (a, e)) = fold_left (fun acc i => op acc (v i)) ls a.
Proof. induction ls as [|x ls IH]; intros a e; [reflexivity|]. cbn [fold_left]. unfold assoc_loop at 2. cbn [fst snd]. apply IH. Qed.

Lemma minmax_memory (T : Z -> Prop) (op : Z -> Z -> Z) id W (mask : nat -> bool) (val : nat -> Z) p w :
  (0 < W)%nat ->
  (forall a b, T a -> T b -> T (op a b)) -> T id ->
  (forall a b c, T a -> T b -> T c -> op (op a b) c = op a (op b c)) ->
  (forall a, T a -> op a id = a) -> (forall a, T a -> op id a = a) ->
  (forall l, (l < W)%nat -> mask l = true -> T (val l)) ->
  typed T (wmem w) -> well_typed_actions T (wenv w) ->
  let red (W : nat) (mask : nat -> bool) (val : nat -> Z) := vreduce op W (fun l => if mask l then val l else id) in
  let r := atomic_minmax red op W mask val p w in
  exists env got, wenv w = env ++ wenv (fst r) /\
    some_serial_order W mask (fun _ => p) (fun l old => op old (val l)) env (wmem w) (wmem (fst r)) got /\
    (forall l, In l (running W mask) -> snd r l = Some (act env (wmem w) p)).
Proof.
  intros HW O1 O2 O3 O4 O5 TV TM TE red r.
  set (v := fun l => if mask l then val l else id).
  assert (R : red W mask val = fst (fold_left (fun st i => assoc_loop op v i st) (seq 1 (W - 1)) (v O, fun _ => id))).
  { transitivity (fold_left (fun acc i => op acc (v i)) (seq 1 (W - 1)) (v O));
      [|symmetry; exact (fst_assoc_fold op v _ _ (fun _ => id))]. unfold red, vreduce. destruct W as [|k]; [lia|]. replace (S k - 1)%nat with k by lia. reflexivity. }
  unfold r, atomic_minmax. unfold lanemask. rewrite movmsk_is_zero.
  destruct (running W mask) as [|f t] eqn:F; cbn [negb].
  - exists [], (fun _ => None). cbn [fst snd]. split; [reflexivity|]. split; [|intros l []].
    exists [], (wmem w), [], []. rewrite F. repeat split; try constructor. intros l r0 [].
  - pose proof (assoc_serial T op id O1 O2 O3 O4 O5 W HW mask val p TV v (fun _ => eq_refl) w (fun a b => op b a)) as S.
    cbv zeta in S. rewrite <- R in S.
    unfold atomicrmw in *. cbn [fst snd] in *.
    specialize (S (fun l => op (wmem (interfere w) p)
      (snd (fold_left (fun st i => assoc_loop op v i st) (seq 1 (W - 1)) (v O, fun _ => id)) l)) TM TE (fun _ _ _ _ => eq_refl)).
    destruct S as (env & E1 & E2); [reflexivity|].
    exists env, (fun l => Some (op (wmem (interfere w) p)
      (snd (fold_left (fun st i => assoc_loop op v i st) (seq 1 (W - 1)) (v O, fun _ => id)) l))).
    split; [exact E1|]. split; [exact E2|].
    intros l Hl. assert (In l (running W mask)) by (rewrite F; exact Hl). apply running_In in H as [_ ->].
    f_equal. cbn [wenv] in E1. rewrite (taken_env w) in E1. apply app_inv_tail in E1. subst env.
    now rewrite taken_mem.
Qed.

(** ** Swap *)

Lemma lane_on_mask W mask i : (W <= 64)%nat -> (i < W)%nat -> lane_on (lanemask W mask) i = mask i.
Proof.
  intros HW Hi. unfold lane_on, lanemask.
  assert (M : Z.testbit (movmsk W mask) (Z.of_nat i) = mask i).
  { rewrite movmsk_testbit by lia. rewrite Nat2Z.id. destruct (Z.ltb_spec (Z.of_nat i) (Z.of_nat W)); [reflexivity|lia]. }
  rewrite <- M. rewrite Z.shiftl_1_l.
  apply eq_true_iff_eq. rewrite negb_true_iff, Z.eqb_neq. split.
  - intros H. destruct (Z.testbit (movmsk W mask) (Z.of_nat i)) eqn:E; [reflexivity|]. exfalso. apply H.
    apply Z.bits_inj'. intros j Hj. rewrite Z.bits_0, Z.land_spec, Z.pow2_bits_eqb by lia.
    destruct (Z.eqb_spec (Z.of_nat i) j); [subst; rewrite E; reflexivity|apply andb_false_r].
  - intros E H. assert (X : Z.testbit (Z.land (movmsk W mask) (2 ^ Z.of_nat i)) (Z.of_nat i) = false) by (rewrite H; apply Z.bits_0).
    rewrite Z.land_spec, E, Z.pow2_bits_true in X by lia. discriminate.
Qed.

Lemma issued_app {A} ptr (op : nat -> A -> A) s1 : forall s2 m m1 m2 r1 r2,
  issued ptr op s1 m m1 r1 -> issued ptr op s2 m1 m2 r2 -> issued ptr op (s1 ++ s2) m m2 (r1 ++ r2).
Proof.
  induction s1 as [|[o l] s1 IH]; intros s2 m m1 m2 r1 r2 H1 H2; inversion H1; subst; [exact H2|].
  cbn. constructor. eapply IH; eauto.
Qed.

Section Swap.
Context {A : Type} (W : nat) (HW : (W <= 64)%nat) (mask : nat -> bool) (value : nat -> A) (p : Z).

(* what the instances of a list get when the last one goes first *)
Fixpoint chain (ls : list nat) (x : A) : list (nat * A) :=
  match ls with
  | [] => []
  | l :: t => (l, match t with [] => x | b :: _ => value b end) :: chain t x
  end.

Lemma chain_issued : forall ls a m, exists m1,
  issued (fun _ => p) (fun l _ => value l) (map (fun l => ([], l)) (rev (a :: ls))) m m1 (rev (chain (a :: ls) (m p))) /\
  (forall q, m1 q = if q =? p then value a else m q).
Proof.
  induction ls as [|b ls IH]; intros a m.
  - exists (write m p (value a)). split; [|reflexivity]. cbn.
    apply (issued_cons (fun _ => p) (fun l _ => value l) [] a). constructor.
  - destruct (IH b m) as (m1 & H1 & H2).
    exists (write m1 p (value a)). split.
    + change (rev (a :: b :: ls)) with (rev (b :: ls) ++ [a]). rewrite map_app.
      change (chain (a :: b :: ls) (m p)) with ((a, value b) :: chain (b :: ls) (m p)).
      change (rev ((a, value b) :: chain (b :: ls) (m p))) with (rev (chain (b :: ls) (m p)) ++ [(a, value b)]).
      eapply issued_app; [exact H1|].
      assert (E : m1 p = value b) by (rewrite H2, Z.eqb_refl; reflexivity). rewrite <- E.
      apply (issued_cons (fun _ => p) (fun l _ => value l) [] a). constructor.
    + intros q. unfold write. destruct (Z.eqb_spec q p) as [->|N]; [reflexivity|].
      rewrite H2. destruct (Z.eqb_spec q p); [contradiction|reflexivity].
Qed.

Lemma last_in (l : list nat) d : In (last l d) (d :: l).
Proof. induction l as [|x [|y l] IH]; [now left|right; now left|]. 
  change (last (x :: y :: l) d) with (last (y :: l) d). destruct IH as [<-|H]; [now left|right; now right]. Qed.

Lemma swap_rest_spec : forall n i s j, sw_last s = Some j -> (j < i)%nat -> (i + n = W)%nat ->
  exists s', swap_rest mask (lanemask W mask) value n i s = Some s' /\
    sw_world s' = sw_world s /\ sw_mem s' = sw_mem s /\
    sw_last s' = Some (last (filter mask (seq i n)) j) /\
    (forall k l, (k < j)%nat -> sw_ret s' k l = sw_ret s k l) /\
    (forall x k r, In (k, r) (chain (j :: filter mask (seq i n)) x) -> mask k = true ->
       if Nat.eqb k (last (filter mask (seq i n)) j) then r = x else sw_ret s' k k = Some r).
Proof.
  induction n as [|n IH]; intros i s j Hj Hji Hi; cbn [swap_rest seq filter].
  - exists s. repeat split; auto. intros x k r [H|[]] _. injection H as <- <-. cbn [last]. now rewrite Nat.eqb_refl.
  - rewrite lane_on_mask by lia. destruct (mask i) eqn:M; cbn [negb].
    + rewrite Hj. set (s1 := SwapSt _ _ _ _).
      destruct (IH (S i) s1 i) as (s' & H1 & H2 & H3 & H4 & H5 & H6); [reflexivity|lia|lia|].
      assert (L : last (i :: filter mask (seq (S i) n)) j = last (filter mask (seq (S i) n)) i).
      { clear. destruct (filter mask (seq (S i) n)) as [|y l]; [reflexivity|].
        change (last (i :: y :: l) j) with (last (y :: l) j). revert y. induction l as [|z l IH]; intros y; [reflexivity|].
        change (last (y :: z :: l) j) with (last (z :: l) j). change (last (y :: z :: l) i) with (last (z :: l) i). apply IH. }
      exists s'. rewrite L. repeat split; auto.
      * intros k l Hk. rewrite H5 by lia. unfold s1. cbn [sw_ret]. unfold set_ret.
        destruct (Nat.eqb_spec k j); [lia|reflexivity].
      * intros x k r [H|H] Mk.
        -- injection H as <- <-.
           assert (G : (i <= last (filter mask (seq (S i) n)) i)%nat).
           { destruct (last_in (filter mask (seq (S i) n)) i) as [E|E].
             - rewrite <- E at 1. lia.
             - apply filter_In in E as [E _]. apply in_seq in E. lia. }
           destruct (Nat.eqb_spec j (last (filter mask (seq (S i) n)) i)); [lia|].
           rewrite H5 by lia. unfold s1. cbn [sw_ret]. unfold set_ret. now rewrite Nat.eqb_refl, Mk.
        -- apply H6; assumption.
    + apply IH; auto; lia.
Qed.

Lemma swap_first_spec : forall n i w, (i + n = W)%nat ->
  match filter mask (seq i n) with
  | [] => swap_first (lanemask W mask) value p n i (SwapSt w None None (fun _ _ => None)) =
          ((i + n)%nat, SwapSt w None None (fun _ _ => None))
  | f :: _ => (i <= f < W)%nat /\ mask f = true /\ filter mask (seq f (W - f)) = filter mask (seq i n) /\
      swap_first (lanemask W mask) value p n i (SwapSt w None None (fun _ _ => None)) =
        (f, let '(w', old) := atomicrmw (fun _ => value f) p w in SwapSt w' (Some old) (Some f) (fun _ _ => None))
  end.
Proof.
  induction n as [|n IH]; intros i w Hi; cbn [seq filter swap_first].
  - now rewrite Nat.add_0_r.
  - rewrite lane_on_mask by lia. destruct (mask i) eqn:M; cbn [negb].
    + split; [lia|]. split; [exact M|]. split.
      { replace (W - i)%nat with (S n) by lia. cbn [seq filter]. now rewrite M. }
      cbn [sw_world]. destruct (atomicrmw _ p w); reflexivity.
    + specialize (IH (S i) w ltac:(lia)). destruct (filter mask (seq (S i) n)).
      * rewrite IH. f_equal. lia.
      * destruct IH as (H1 & H2 & H3 & H4). split; [lia|]. auto.
Qed.

Theorem swap_serial w : running W mask <> [] ->
  exists w' ret, atomic_swap W mask value p w = Some (w', ret) /\
    exists env, wenv w = env ++ wenv w' /\
      some_serial_order W mask (fun _ => p) (fun l _ => value l) env (wmem w) (wmem w') ret.
Proof.
  intros Hne. unfold atomic_swap. cbv zeta. pose proof (swap_first_spec W O w ltac:(lia)) as F.
  change (filter mask (seq 0 W)) with (running W mask) in F.
  destruct (running W mask) as [|f t] eqn:R; [congruence|]. destruct F as (F1 & F2 & F3 & F4).
  rewrite F4. unfold atomicrmw. cbv beta iota.
  set (m0 := wmem (interfere w)). set (w1 := World (mupd m0 p (value f)) (wenv (interfere w))).
  (* the second loop starts at f again *)
  destruct (W - f)%nat as [|n] eqn:N; [lia|]. cbn [swap_rest].
  rewrite lane_on_mask by lia. rewrite F2. cbn [negb sw_last sw_world sw_mem sw_ret].
  set (s1 := SwapSt w1 (Some (m0 p)) (Some f) _).
  destruct (swap_rest_spec n (S f) s1 f) as (s' & H1 & H2 & H3 & H4 & H5 & H6); [reflexivity|lia|lia|].
  rewrite H1. cbv beta iota. rewrite H4.
  assert (T : filter mask (seq (S f) n) = t).
  { rewrite ?N in F3. cbn [seq filter] in F3. rewrite F2 in F3. injection F3 as F3. exact F3. }
  rewrite T in *.
  do 2 eexists. split; [reflexivity|].
  exists (taken w). rewrite H2. cbn [sw_world]. split; [apply taken_env|].
  destruct (chain_issued t f m0) as (m1 & C1 & C2).
  destruct (rev (f :: t)) as [|e rr] eqn:RV; [apply (f_equal (@length nat)) in RV; rewrite rev_length in RV; discriminate|].
  exists ((taken w, e) :: map (fun l => ([], l)) rr), m1, (rev (chain (f :: t) (m0 p))), [].
  split.
  { rewrite R. cbn [map snd]. rewrite map_map. cbn [snd]. rewrite map_id, <- RV. symmetry. apply Permutation_rev. }
  split.
  { cbn [map fst List.concat]. rewrite map_map. cbn [fst].
    replace (List.concat (map (fun _ : nat => @nil ((Z -> A) -> Z -> A)) rr)) with (@nil ((Z -> A) -> Z -> A)).
    - now rewrite !app_nil_r.
    - clear. induction rr; cbn; auto. }
  split; [apply issued_first; rewrite <- taken_mem; fold m0; exact C1|].
  split; [intros q; cbn; rewrite C2; reflexivity|].
  intros l r Hin. apply in_rev in Hin.
  assert (Hl : In l (running W mask)).
  { rewrite R. clear - Hin. revert Hin. generalize (f :: t) as ls, (m0 p) as x.
    induction ls as [|y ls IH]; intros x; [intros []|]. intros [H|H]; [injection H as <- _; now left|right; eauto]. }
  apply running_In in Hl as [_ Hm]. specialize (H6 _ _ _ Hin Hm).
  unfold set_ret. rewrite Hm, andb_true_r. destruct (Nat.eqb l (last t f)) eqn:E; [|exact H6].
  subst r. rewrite H3. reflexivity.
Qed.

Theorem swap_none_running w : running W mask = [] -> atomic_swap W mask value p w = None.
Proof.
  intros R. unfold atomic_swap. cbv zeta. pose proof (swap_first_spec W O w ltac:(lia)) as F.
  change (filter mask (seq 0 W)) with (running W mask) in F. rewrite R in F. rewrite F. cbn [plus].
  rewrite Nat.sub_diag. reflexivity.
Qed.
End Swap.
