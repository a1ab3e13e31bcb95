(** Proofs about the analysis of linear vectors (C58). *)

From Coq Require Import ZArith List Bool Lia Wf_nat.
From Verif Require Import Bits AddrModel AddrSpec AddrProofs AddrProofs2.
Import ListNotations.
Open Scope Z_scope.

(** ** Arithmetic modulo a power of two *)

Lemma wrapu_ex w x : exists k, wrapu w x = x + k * 2 ^ w.
Proof.
  exists (- (x / 2 ^ w)). unfold wrapu.
  destruct (Z.eq_dec (2 ^ w) 0) as [E|N].
  - rewrite E, Zmod_0_r. lia.
  - pose proof (Z.div_mod x (2 ^ w) N). lia.
Qed.

Lemma wrapu_eq w x y k : x = y + k * 2 ^ w -> wrapu w x = wrapu w y.
Proof. intros ->. unfold wrapu. apply Z_mod_plus_full. Qed.

Lemma wrapu_narrow w v x : 0 <= w <= v -> wrapu w (wrapu v x) = wrapu w x.
Proof.
  intro H. destruct (wrapu_ex v x) as [k E]. rewrite E.
  apply (wrapu_eq w _ _ (k * 2 ^ (v - w))). rewrite <- Z.mul_assoc, <- Z.pow_add_r by lia.
  do 3 f_equal. lia.
Qed.

Lemma lin_plus w a0 b s : wrapu w (wrapu w (a0 + s) + b) = wrapu w (wrapu w (a0 + b) + s).
Proof. rewrite !wrapu_add_l. f_equal. lia. Qed.

Lemma lin_minus_l w a0 b s : wrapu w (wrapu w (a0 + s) - b) = wrapu w (wrapu w (a0 - b) + s).
Proof.
  destruct (wrapu_ex w (a0 + s)) as [k ->]. destruct (wrapu_ex w (a0 - b)) as [m ->].
  apply (wrapu_eq w _ _ (k - m)). ring.
Qed.

Lemma lin_minus_r w a b0 s : wrapu w (a - wrapu w (b0 - s)) = wrapu w (wrapu w (a - b0) + s).
Proof.
  destruct (wrapu_ex w (b0 - s)) as [k ->]. destruct (wrapu_ex w (a - b0)) as [m ->].
  apply (wrapu_eq w _ _ (- k - m)). ring.
Qed.

Lemma lin_mul w c y0 s : wrapu w (c * wrapu w (y0 + s)) = wrapu w (wrapu w (c * y0) + c * s).
Proof.
  destruct (wrapu_ex w (y0 + s)) as [k ->]. destruct (wrapu_ex w (c * y0)) as [m ->].
  apply (wrapu_eq w _ _ (c * k - m)). ring.
Qed.

Lemma mul_splat w c x : wrapu w (wrapu w c * x) = wrapu w (c * x).
Proof.
  destruct (wrapu_ex w c) as [k ->]. apply (wrapu_eq w _ _ (k * x)). ring.
Qed.

Lemma int_splat_spec n T r e s :
  well n T true e -> int_splat e = Some s ->
  in_s (width e) s /\ forall j, (j < n)%nat -> eval r e j = wrapu (width e) s.
Proof.
  intros W E. destruct e; cbn [int_splat] in E; try discriminate; cbn [well width eval] in *.
  - injection E as <-. destruct W as [_ W]. split.
    + unfold in_s. pose proof (pow2_pos (w - 1) ltac:(lia)). lia.
    + intros j _. unfold wrapu. rewrite Zmod_0_l. reflexivity.
  - destruct (splat_of Z.eqb l) as [x|] eqn:S; cbn [option_map] in E; [|discriminate].
    injection E as <-. destruct W as (_ & Hw & L & _).
    split; [apply wraps_range; lia|].
    intros j Hj. rewrite wrapu_wraps by lia.
    rewrite (splat_spec _ zeqb_eq l x S (nth j l 0)) by (apply nth_In; lia). reflexivity.
  - destruct (splat_of celt_eqb l) as [x|] eqn:S; [|discriminate].
    destruct x; try discriminate. injection E as <-. destruct W as (_ & Hw & L).
    split; [apply wraps_range; lia|].
    intros j Hj. rewrite wrapu_wraps by lia.
    rewrite (splat_spec _ celt_eqb_eq l _ S (nth j l EUndef)) by (apply nth_In; lia). reflexivity.
Qed.

Lemma linear_ints_spec s l :
  linear_ints s l = true -> forall i, (i < length l)%nat -> nth i l 0 = nth 0 l 0 + Z.of_nat i * s.
Proof.
  induction l as [|x l IH]; [intros _ i H; cbn in H; lia|].
  destruct l as [|y l]; intros E i Hi.
  - cbn in Hi. replace i with 0%nat by lia. cbn. lia.
  - cbn [linear_ints] in E. apply andb_true_iff in E. destruct E as [E1 E2]. apply Z.eqb_eq in E1.
    destruct i as [|i]; [cbn; lia|].
    cbn [nth]. cbn [length] in Hi, IH. specialize (IH E2 i ltac:(lia)). cbn [nth] in IH.
    rewrite IH. lia.
Qed.

Lemma pow2_or_zero_spec m : 0 < m + 1 -> pow2_or_zero (m + 1) = true -> exists k, 0 <= k /\ m + 1 = 2 ^ k.
Proof.
  intros H E. unfold pow2_or_zero in E. apply Z.eqb_eq in E.
  exists (Z.log2 (m + 1)). split; [apply Z.log2_nonneg|].
  set (x := m + 1) in *. pose proof (Z.log2_spec x H) as [S1 S2].
  assert (Hl := Z.log2_nonneg x).
  destruct (Z.eq_dec x (2 ^ Z.log2 x)) as [X|X]; [exact X|exfalso].
  assert (B1 : Z.testbit x (Z.log2 x) = true) by (apply Z.bit_log2; lia).
  assert (L : Z.log2 (x - 1) = Z.log2 x).
  { apply Z.log2_unique; lia. }
  assert (B2 : Z.testbit (x - 1) (Z.log2 x) = true).
  { rewrite <- L. apply Z.bit_log2.
    pose proof (pow2_pos (Z.log2 x) Hl). lia. }
  assert (B : Z.testbit (Z.land x (x - 1)) (Z.log2 x) = true) by (rewrite Z.land_spec, B1, B2; reflexivity).
  rewrite E, Z.bits_0 in B. discriminate.
Qed.

Lemma rem_abs_mul s c : c <> 0 -> Z.rem (Z.abs s) c = 0 -> s = c * Z.quot s c.
Proof.
  intros N E. assert (R : Z.rem s c = 0).
  { destruct (Z.abs_eq_or_opp s) as [A|A]; rewrite A in E; [exact E|].
    rewrite Z.rem_opp_l in E by exact N. lia. }
  pose proof (Z.quot_rem s c N). lia.
Qed.

(** Exact steps: two values apart by less than half the range whose difference
    is the stride modulo the range. *)
Lemma exact_step w x y s k :
  0 < w -> Z.abs (y - x) < 2 ^ (w - 1) -> Z.abs s < 2 ^ (w - 1) -> y = x + s + k * 2 ^ w -> y = x + s.
Proof.
  intros Hw A B E. pose proof (pow2_split w Hw).
  assert (k = 0) by nia. subst k. lia.
Qed.

Section Linear.

Variables (n : nat) (T : nat -> bool * Z) (P : prog) (tr : nat -> env).
Hypothesis Hrun : run P tr.
Hypothesis HP : well_prog n T P.

Definition LQ (t : nat) (x : exp) : Prop := Q n tr t x /\ no_jump (tr t) n x.

Definition lgood (e : exp) : Prop := forall t, every (LQ t) false e.

Lemma every_impl (A B : exp -> Prop) : (forall x, A x -> B x) ->
  forall e b, every A b e -> every B b e.
Proof.
  intro H.
  assert (G : forall e, (forall b, every A b e -> every B b e) /\
    match e with Insert (Undef _) s O => every A false s -> every B false s | _ => True end).
  { induction e;
      (split; [intros b E; cbn [every] in *; destruct E as [E1 E2];
               (split; [intro X; apply H, E1, X|]); intuition|]);
      try exact Logic.I.
    - destruct e1; try exact Logic.I. destruct i; try exact Logic.I. apply IHe2.
    - destruct e; try exact Logic.I. destruct e1; try exact Logic.I. destruct i; try exact Logic.I.
      apply H1, E2. }
  intros e. apply G.
Qed.

Lemma lgood_good e : lgood e -> good n tr e.
Proof. intros G t. specialize (G t). revert G. apply every_impl. intros x [X _]. exact X. Qed.

Hypothesis HG : forall p i, In i (P p) -> lgood i.

Let HG' : forall p i, In i (P p) -> good n tr i.
Proof. intros p i I. apply lgood_good, (HG p i I). Qed.

Lemma is_linear_S strict f stride e seen : is_linear n P strict (S f) stride e seen =
    let check_mul x y :=
      match int_splat x with
      | Some s =>
          negb (s =? 0) && negb (Z.abs stride <? s) && (Z.rem (Z.abs stride) s =? 0)
          && is_linear n P strict f (Z.quot stride s) y seen
      | None => false
      end in
    match e with
    | Data w l => linear_ints stride (map (wraps w) l)
    | Bin o _ _ a b =>
        if is_add o then
          (is_linear n P strict f stride a seen && all_equal n P strict f b seen) ||
          (all_equal n P strict f a seen && is_linear n P strict f stride b seen)
        else match o with
        | Sub =>
            (is_linear n P strict f stride a seen && all_equal n P strict f b seen) ||
            (all_equal n P strict f a seen && is_linear n P strict f (- stride) b seen)
        | Mul => check_mul a b || check_mul b a
        | Shl =>
            match int_splat b with
            | Some k =>
                (0 <=? k) && (k <? 63) && negb (Z.abs stride <? 2 ^ k)
                && (Z.rem (Z.abs stride) (2 ^ k) =? 0)
                && is_linear n P strict f (Z.quot stride (2 ^ k)) a seen
            | None => false
            end
        | And =>
            match ints n b with
            | Some (m :: ms) =>
                forallb (Z.eqb m) ms && pow2_or_zero (m + 1) && (0 <? m + 1)
                && is_linear n P strict f stride a seen && all_div n P strict f (m + 1) a seen
            | _ => false
            end
        | _ => false
        end
    | Cast _ _ a => is_linear n P strict f stride a seen
    | Phi _ _ p =>
        in_seen strict (TLin stride) p seen ||
        forallb (fun i => is_linear n P strict f stride i ((TLin stride, p) :: seen)) (P p)
    | _ => false
    end.
Proof. reflexivity. Qed.

Lemma lgood_bin o nsw w a b : lgood (Bin o nsw w a b) -> lgood a /\ lgood b.
Proof. intro G. split; intro t; specialize (G t); cbn [every] in G; tauto. Qed.

Lemma lgood_phi v w p : lgood (Phi v w p).
Proof. intro s. cbn [every]. split; [intros _; repeat split|exact Logic.I]. Qed.

(** A multiplication by a constant. *)
Lemma mul_linear t x y w s stride :
  well n T true x -> width x = w -> width y = w ->
  int_splat x = Some s ->
  s <> 0 -> Z.rem (Z.abs stride) s = 0 -> lanes_linear (tr t) n (Z.quot stride s) y ->
  forall i, (i < n)%nat ->
    wrapu w (eval (tr t) x i * eval (tr t) y i) =
    wrapu w (wrapu w (eval (tr t) x 0 * eval (tr t) y 0) + Z.of_nat i * stride).
Proof.
  intros W Lx Ly S N R L i Hi.
  destruct (int_splat_spec n T (tr t) x s W S) as [_ V]. rewrite Lx in V.
  rewrite (V i Hi), (V 0%nat) by lia. rewrite !mul_splat.
  unfold lanes_linear in L. rewrite (L i Hi), Ly.
  rewrite lin_mul. do 2 f_equal. rewrite (rem_abs_mul stride s N R) at 2. ring.
Qed.

Theorem linear_sound t : forall f stride e seen,
  0 < Z.abs stride < 128 -> well n T true e -> lgood e -> assumed n T tr t seen ->
  is_linear n P true f stride e seen = true -> holds n tr t (TLin stride) e.
Proof.
  induction t as [t IHt] using lt_wf_ind.
  induction f as [|f IHf]; intros stride e seen Hs W G A E; [discriminate|].
  rewrite is_linear_S in E. cbv zeta in E. intro D.
  assert (EQ : forall x, well n T true x -> lgood x -> all_equal n P true f x seen = true ->
                 defined (tr t) x -> lanes_equal (tr t) n x).
  { intros x Wx Gx Ex Dx.
    apply (proj1 (equal_sound n T P tr Hrun HP HG' t f x seen Wx (lgood_good x Gx) A) Ex Dx). }
  destruct e; try discriminate.
  - (* Data *)
    intros i Hi. cbn [eval width]. cbn [well] in W. destruct W as (_ & Hw & L & F).
    pose proof (linear_ints_spec _ _ E i ltac:(rewrite map_length; lia)) as X.
    assert (Z0 : wraps w 0 = 0).
    { apply wraps_id; [lia|]. unfold in_s. pose proof (pow2_pos (w - 1) ltac:(lia)). lia. }
    rewrite <- Z0 in X at 1. rewrite <- Z0 in X at 2. rewrite !map_nth in X.
    rewrite <- (wrapu_wraps w (nth i l 0)), X by lia.
    rewrite <- wrapu_add_l, wrapu_wraps by lia. reflexivity.
  - (* Bin *)
    assert (G' := lgood_good _ G).
    assert (W' := W). cbn [well] in W'. destruct W' as (Hw & W1 & W2 & L1 & L2).
    destruct (lgood_bin _ _ _ _ _ G) as [G1 G2].
    assert (D' := D). cbn [defined] in D'. destruct D' as [D1 D2].
    intros i Hi. cbn [width].
    destruct (is_add o) eqn:O.
    { rewrite !(good_add n tr t) by (assumption || lia).
      apply orb_true_iff in E. destruct E as [E|E]; apply andb_true_iff in E; destruct E as [E1 E2].
      - pose proof (IHf stride e1 seen Hs W1 G1 A E1 D1 i Hi) as V. rewrite V, L1.
        rewrite (EQ e2 W2 G2 E2 D2 i 0%nat) by lia. apply lin_plus.
      - pose proof (IHf stride e2 seen Hs W2 G2 A E2 D2 i Hi) as V. rewrite V, L2.
        rewrite (EQ e1 W1 G1 E1 D1 i 0%nat) by lia.
        rewrite (Z.add_comm (eval (tr t) e1 0)), (Z.add_comm (eval (tr t) e1 0)). apply lin_plus. }
    cbn [eval].
    destruct o; try discriminate; unfold bop_val.
    + (* Sub *)
      apply orb_true_iff in E. destruct E as [E|E]; apply andb_true_iff in E; destruct E as [E1 E2].
      * pose proof (IHf stride e1 seen Hs W1 G1 A E1 D1 i Hi) as V. rewrite V, L1.
        rewrite (EQ e2 W2 G2 E2 D2 i 0%nat) by lia. apply lin_minus_l.
      * pose proof (IHf (- stride) e2 seen ltac:(lia) W2 G2 A E2 D2 i Hi) as V. rewrite V, L2.
        rewrite (EQ e1 W1 G1 E1 D1 i 0%nat) by lia.
        replace (Z.of_nat i * - stride) with (- (Z.of_nat i * stride)) by ring.
        apply lin_minus_r.
    + (* Mul *)
      assert (C : forall x y, well n T true x -> well n T true y -> lgood y -> width x = w -> width y = w ->
        defined (tr t) y ->
        match int_splat x with
        | Some s =>
          negb (s =? 0) && negb (Z.abs stride <? s) && (Z.rem (Z.abs stride) s =? 0)
          && is_linear n P true f (Z.quot stride s) y seen
        | None => false
        end = true ->
        wrapu w (eval (tr t) x i * eval (tr t) y i) =
        wrapu w (wrapu w (eval (tr t) x 0 * eval (tr t) y 0) + Z.of_nat i * stride)).
      { intros x y Wx Wy Gy Lx Ly Dy C. destruct (int_splat x) as [s|] eqn:S; [|discriminate].
        rewrite !andb_true_iff, !negb_true_iff, Z.eqb_neq, Z.eqb_eq in C.
        destruct C as (((C1 & _) & C2) & C3).
        eapply mul_linear; try eassumption.
        apply (IHf _ y seen); auto.
        pose proof (rem_abs_mul stride s C1 C2). nia. }
      apply orb_true_iff in E. destruct E as [E|E].
      * apply C; assumption.
      * rewrite (Z.mul_comm (eval (tr t) e1 i)), (Z.mul_comm (eval (tr t) e1 0)). apply C; assumption.
    + (* Shl *)
      destruct (int_splat e2) as [k|] eqn:S; [|discriminate].
      rewrite !andb_true_iff, !negb_true_iff, Z.leb_le, Z.eqb_eq, Z.ltb_lt in E.
      destruct E as ((((K0 & K1) & _) & K2) & K3).
      destruct (int_splat_spec n T (tr t) e2 k W2 S) as [Rk V]. rewrite L2 in Rk, V.
      assert (Vk : wrapu w k = k).
      { apply wrapu_id. unfold in_s in Rk. unfold in_u. pose proof (pow2_split w Hw).
        pose proof (pow2_pos (w - 1) ltac:(lia)). lia. }
      rewrite (V i Hi), (V 0%nat), Vk by lia.
      assert (Pk : 0 < 2 ^ k) by (apply pow2_pos; lia).
      pose proof (rem_abs_mul stride (2 ^ k) ltac:(lia) K2) as Es.
      assert (Hq : 0 < Z.abs (Z.quot stride (2 ^ k)) < 128) by nia.
      pose proof (IHf _ e1 seen Hq W1 G1 A K3 D1 i Hi) as U. rewrite U, L1.
      rewrite (Z.mul_comm _ (2 ^ k)), (Z.mul_comm _ (2 ^ k)), lin_mul.
      do 2 f_equal. rewrite Es at 2. ring.
    + (* And *)
      destruct (ints n e2) as [[|m ms]|] eqn:S; try discriminate.
      rewrite !andb_true_iff, Z.ltb_lt in E. destruct E as ((((E1 & E2) & E3) & E4) & E5).
      destruct (ints_spec n T (tr t) e2 _ W2 (good_tame n tr e2 (lgood_good _ G2)) S) as (Lk & V & Rk).
      assert (Em : forall j, (j < n)%nat -> eval (tr t) e2 j = m).
      { intros j Hj'. rewrite (V j Hj'). rewrite forallb_forall in E1.
        assert (I : In (nth j (m :: ms) 0) (m :: ms)) by (apply nth_In; lia).
        destruct I as [I|I]; [symmetry; exact I|].
        apply E1 in I. apply Z.eqb_eq in I. auto. }
      destruct (pow2_or_zero_spec m E3 E2) as (k & Hk & Ek). rewrite Ek in E5.
      rewrite (Em i Hi), (Em 0%nat) by lia.
      replace m with (Z.ones k) by (rewrite Z.ones_equiv; lia). rewrite !Z.land_ones by lia.
      pose proof (proj2 (equal_sound n T P tr Hrun HP HG' t f e1 seen W1 (lgood_good _ G1) A)
                    k Hk E5 D1 i 0%nat Hi ltac:(lia)) as Dv.
      pose proof (IHf stride e1 seen Hs W1 G1 A E4 D1 i Hi) as U. rewrite L1 in U.
      assert (Pk : 2 ^ k <> 0) by (pose proof (pow2_pos k Hk); lia).
      rewrite !Z.mod_eq by exact Pk. rewrite Dv, U.
      apply lin_minus_l.
  - (* Cast *)
    assert (Nj := G t). cbn [every] in Nj. destruct Nj as [Nj _].
    destruct (Nj eq_refl) as [_ Nj']. clear Nj. cbn [no_jump] in Nj'. destruct Nj' as [W8 Nj].
    specialize (Nj D).
    assert (G1 : lgood e). { intro s. specialize (G s). cbn [every] in G. tauto. }
    cbn [well] in W. destruct W as (Hw & W1 & Wc).
    pose proof (IHf stride e seen Hs W1 G1 A E D) as V. unfold lanes_linear in V.
    assert (P8 : 128 <= 2 ^ (width e - 1)).
    { change 128 with (2 ^ 7). apply Z.pow_le_mono_r; lia. }
    assert (Wpos := well_width n T true e W1).
    assert (Re := fun j => eval_range n T true (tr t) e j W1).
    intros i Hi. cbn [eval width]. unfold cast_val.
    destruct c.
    + rewrite (V i Hi), wrapu_narrow by lia. rewrite wrapu_add_l. reflexivity.
    + (* SExt *)
      set (x := fun j => wraps (width e) (eval (tr t) e j)).
      assert (St : forall j, (j < n)%nat -> x j = x 0%nat + Z.of_nat j * stride).
      { induction j as [|j IHj]; intro Hj; [lia|].
        specialize (IHj ltac:(lia)).
        assert (x (S j) = x j + stride); [|lia].
        destruct (wrapu_ex (width e) (eval (tr t) e 0 + Z.of_nat j * stride)) as [k1 K1].
        destruct (wrapu_ex (width e) (eval (tr t) e 0 + Z.of_nat (S j) * stride)) as [k2 K2].
        rewrite <- (V j ltac:(lia)) in K1. rewrite <- (V (S j) Hj) in K2.
        destruct (wrapu_ex (width e) (x j)) as [k3 K3]. destruct (wrapu_ex (width e) (x (S j))) as [k4 K4].
        unfold x in K3 at 1, K4 at 1. rewrite wrapu_wraps, wrapu_id in K3, K4 by (lia || apply Re).
        apply (exact_step (width e) _ _ stride (k2 - k1 + k3 - k4)); [lia|apply Nj; exact Hj|lia|].
        replace (Z.of_nat (S j)) with (Z.of_nat j + 1) in K2 by lia.
        lia. }
      fold (x i) (x 0%nat). rewrite (St i Hi), wrapu_add_l. reflexivity.
    + (* ZExt *)
      set (x := fun j => eval (tr t) e j).
      assert (St : forall j, (j < n)%nat -> x j = x 0%nat + Z.of_nat j * stride).
      { induction j as [|j IHj]; intro Hj; [lia|].
        specialize (IHj ltac:(lia)).
        assert (x (S j) = x j + stride); [|lia].
        destruct (wrapu_ex (width e) (eval (tr t) e 0 + Z.of_nat j * stride)) as [k1 K1].
        destruct (wrapu_ex (width e) (eval (tr t) e 0 + Z.of_nat (S j) * stride)) as [k2 K2].
        rewrite <- (V j ltac:(lia)) in K1. rewrite <- (V (S j) Hj) in K2.
        apply (exact_step (width e) _ _ stride (k2 - k1)); [lia|apply Nj; exact Hj|lia|].
        unfold x. replace (Z.of_nat (S j)) with (Z.of_nat j + 1) in K2 by lia.
        lia. }
      change (eval (tr t) e i) with (x i). change (eval (tr t) e 0) with (x 0%nat).
      rewrite (St i Hi), wrapu_add_l. reflexivity.
    + (* OtherCast *)
      destruct i as [|i].
      { cbn [Z.of_nat]. rewrite Z.mul_0_l, Z.add_0_r, wrapu_wrapu. reflexivity. }
      exfalso. specialize (V 1%nat ltac:(lia)).
      rewrite (Nj 1%nat 0%nat) in V by lia.
      destruct (wrapu_ex (width e) (eval (tr t) e 0 + Z.of_nat 1 * stride)) as [q K].
      rewrite <- V in K. pose proof (pow2_split (width e) Wpos) as Sp. change (Z.of_nat 1) with 1 in K.
      set (M := 2 ^ width e) in *. assert (q = 0 \/ 1 <= q \/ q <= -1) as [-> | [Hq|Hq]] by lia; nia.
  - (* Phi *)
    cbn [well] in W. destruct W as (-> & HT & Hw).
    destruct (in_seen true (TLin stride) n0 seen) eqn:X; cbn [orb] in E.
    + apply in_seen_spec in X. apply (A t (TLin stride) n0 true w); auto.
    + assert (D' := D). cbn [defined] in D'.
      destruct (phi_value n T P tr Hrun HP HG' t true w n0 HT D') as (t' & j & Lt & I & Dj & V).
      rewrite forallb_forall in E.
      destruct (HP n0 j I) as [Wj Lj]. rewrite HT in Wj, Lj. cbn [fst snd] in Wj, Lj.
      pose proof (IHt t' Lt f stride j ((TLin stride, n0) :: seen) Hs Wj (HG n0 j I)) as M.
      assert (A' : assumed n T tr t' ((TLin stride, n0) :: seen)).
      { intros t'' g p v' w' Lt' [Ip|Ip] HT'.
        - injection Ip as <- <-. rewrite HT in HT'. injection HT' as <- <-.
          apply (IHt t'' ltac:(lia) (S f) stride (Phi true w n0) seen Hs).
          + cbn [well]. auto.
          + apply lgood_phi.
          + intros t3 g3 p3 v3 w3 L3. apply A. lia.
          + rewrite is_linear_S. cbv zeta. rewrite X. cbn [orb]. apply forallb_forall. exact E.
        - apply (A t'' g p v' w'); auto. lia. }
      specialize (M A' (E j I) Dj). intros i Hi. rewrite !V. cbn [width].
      specialize (M i Hi). rewrite Lj in M. exact M.
Qed.

End Linear.

(** ** Without PHI nodes the list of PHI nodes seen does not matter *)

Section NoPhi.

Variables (n : nat) (T : nat -> bool * Z) (P : prog).

Definition N (x : exp) : Prop := tame n x /\ no_phi x.

Lemma N_celt w c : every N false (celt_exp w c).
Proof. destruct c; cbn [celt_exp every]; unfold N; cbn [tame no_phi]; intuition discriminate. Qed.

Lemma N_flatten und v e x :
  well n T v e -> every N false e -> flatten n und false e = Some x ->
  well n T false x /\ every N false x.
Proof.
  intros W G E.
  assert (W' : well n T true e).
  { destruct e; cbn [flatten] in E; try discriminate; cbn [well] in *; tauto. }
  assert (C : match e with
              | Insert _ _ _ => (forall j, (j < n)%nat -> covers e j) /\ flat_chain e
              | _ => True
              end).
  { destruct e; try exact Logic.I. cbn [every] in G. destruct G as [G _]. apply (G eq_refl). }
  destruct (flatten_sound n T N N_celt und e x W' G C E) as (A & _ & B & _). split; assumption.
Qed.

Hypothesis HP : well_prog n T P.
Hypothesis HN : forall p i, In i (P p) -> every N false i.

Lemma forallb_ext_in {A} (f g : A -> bool) l :
  (forall x, In x l -> f x = g x) -> forallb f l = forallb g l.
Proof.
  induction l as [|x l IH]; intro H; [reflexivity|]. cbn [forallb].
  rewrite (H x), IH; [reflexivity| |left; reflexivity]. intros y Y. apply H. right. exact Y.
Qed.

Lemma equal_no_phi f :
  (forall e seen seen', well n T true e -> every N false e ->
     all_equal n P false f e seen = all_equal n P true f e seen') /\
  (forall b e seen seen', well n T true e -> every N false e ->
     all_div n P false f b e seen = all_div n P true f b e seen') /\
  (forall b e v seen, well n T v e -> every N false e ->
     is_multiple n P false f b e seen = is_multiple n P true f b e seen).
Proof.
  induction f as [|f (I1 & I2 & I3)]; [repeat split; intros; reflexivity|].
  split; [|split].
  - intros e seen seen' W H. rewrite !all_equal_S. destruct (Nat.eqb n 1); [reflexivity|].
    destruct e; try reflexivity; cbn [every] in H; destruct H as [H0 H]; cbn [well] in W.
    + destruct H as [H1 H2]. destruct W as (_ & W1 & W2 & _).
      rewrite (I1 e1 seen seen' W1 H1), (I1 e2 seen seen' W2 H2).
      destruct o; try reflexivity; destruct (ints n e2) as [[|k ks]|]; try reflexivity;
        rewrite (I2 (2 ^ k) e1 [] [] W1 H1); reflexivity.
    + destruct W as (_ & W & _). apply (I1 e); assumption.
    + destruct W as [-> _]. destruct (H0 eq_refl) as [_ []].
  - intros b e seen seen' W H. rewrite !all_div_S. rewrite (I1 e seen seen' W H).
    destruct (ints n e); [reflexivity|].
    destruct e; try reflexivity; cbn [every] in H; destruct H as [H0 H]; cbn [well] in W.
    + destruct (is_add o); [|reflexivity]. destruct H as [H1 H2]. destruct W as (_ & W1 & W2 & _).
      destruct (ints n e2); [|reflexivity].
      rewrite (I1 e1 seen seen' W1 H1), (I3 _ e1 true [] W1 H1). reflexivity.
    + destruct W as [-> _]. destruct (H0 eq_refl) as [_ []].
  - intros b e v seen W H. rewrite !is_multiple_S. f_equal.
    destruct e; try reflexivity.
    + cbn [every] in H; destruct H as [H0 [H1 H2]]; cbn [well] in W. destruct W as (_ & W1 & W2 & _).
      rewrite (I3 b e1 v seen W1 H1), (I3 b e2 v seen W2 H2). reflexivity.
    + assert (v = true) as -> by (cbn [well] in W; tauto).
      rewrite (I1 _ [] [] W H).
      destruct (flatten n true false (Insert e1 e2 i)) as [x|] eqn:F; [|reflexivity].
      destruct (N_flatten _ _ _ _ W H F) as [Wx Hx]. rewrite (I3 b x false seen Wx Hx). reflexivity.
    + assert (v = true) as -> by (cbn [well] in W; tauto).
      rewrite (I1 _ [] [] W H).
      destruct (flatten n true false (Shuf e m)) as [x|] eqn:F; [|reflexivity].
      destruct (N_flatten _ _ _ _ W H F) as [Wx Hx]. rewrite (I3 b x false seen Wx Hx). reflexivity.
    + cbn [every] in H. destruct H as [H _]. destruct (H eq_refl) as [_ Hv].
      destruct vec; [destruct Hv|]. f_equal. f_equal. apply forallb_ext_in.
      intros i I. destruct (HP n0 i I) as [Wi _].
      apply (I3 b i (fst (T n0)) (n0 :: seen) Wi (HN n0 i I)).
Qed.

Lemma linear_no_phi f : forall s e seen seen', well n T true e -> every N false e ->
  is_linear n P false f s e seen = is_linear n P true f s e seen'.
Proof.
  induction f as [|f IH]; intros s e seen seen' W H; [reflexivity|].
  rewrite !is_linear_S. cbv zeta.
  destruct (equal_no_phi f) as (I1 & I2 & _).
  destruct e; try reflexivity; cbn [every] in H; destruct H as [H0 H]; cbn [well] in W.
  - destruct H as [H1 H2]. destruct W as (_ & W1 & W2 & _).
    destruct (is_add o).
    + rewrite (IH s e1 seen seen' W1 H1), (IH s e2 seen seen' W2 H2).
      rewrite (I1 e1 seen seen' W1 H1), (I1 e2 seen seen' W2 H2). reflexivity.
    + destruct o; try reflexivity.
      * rewrite (IH s e1 seen seen' W1 H1), (IH (- s) e2 seen seen' W2 H2).
        rewrite (I1 e1 seen seen' W1 H1), (I1 e2 seen seen' W2 H2). reflexivity.
      * f_equal.
        -- destruct (int_splat e1); [|reflexivity]. rewrite (IH _ e2 seen seen' W2 H2). reflexivity.
        -- destruct (int_splat e2); [|reflexivity]. rewrite (IH _ e1 seen seen' W1 H1). reflexivity.
      * destruct (int_splat e2); [|reflexivity]. rewrite (IH _ e1 seen seen' W1 H1). reflexivity.
      * destruct (ints n e2) as [[|m ms]|]; try reflexivity.
        rewrite (IH _ e1 seen seen' W1 H1), (I2 _ e1 seen seen' W1 H1). reflexivity.
  - destruct W as (_ & W & _). apply (IH s e); assumption.
  - destruct W as [-> _]. destruct (H0 eq_refl) as [_ []].
Qed.

End NoPhi.
