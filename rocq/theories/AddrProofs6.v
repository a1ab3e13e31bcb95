(** Proofs about gather and scatter calls (C37, C59). *)

From Coq Require Import ZArith List Bool Lia.
From Verif Require Import Bits AddrModel AddrSpec AddrProofs AddrProofs2 AddrProofs3 AddrProofs4
  AddrProofs5.
Import ListNotations.
Open Scope Z_scope.

Lemma wraps_ex w x : 0 < w -> exists k, wraps w x = x + k * 2 ^ w.
Proof.
  intro H. exists (- ((x + 2 ^ (w - 1)) / 2 ^ w)). unfold wraps.
  pose proof (Z.div_mod (x + 2 ^ (w - 1)) (2 ^ w)).
  pose proof (pow2_pos w ltac:(lia)). lia.
Qed.

Lemma small_wraps32 x : in_u 64 x -> small 64 x -> wraps 32 (wrapu 32 x) = wraps 64 x.
Proof.
  intros R S. unfold small in S.
  destruct (wraps_ex 64 x ltac:(lia)) as [k K].
  rewrite wraps_wrapu by lia.
  transitivity (wraps 32 (wraps 64 x)).
  - apply wraps_congr. rewrite K. symmetry. apply (wrapu_eq 32 _ _ (k * 2 ^ 32)).
    change (2 ^ 64) with (2 ^ 32 * 2 ^ 32). ring.
  - apply wraps_id; [lia|]. unfold in_s. change (32 - 1) with 31. lia.
Qed.

Section Calls.

Variables (n : nat) (T : nat -> bool * Z) (r : env) (lane : nat).
Hypothesis Hlane : (lane < n)%nat.

Lemma part_ok m w o : 0 < w -> ook n T r lane m w o ->
  well n T true (part w o) /\ width (part w o) = w /\ room r lane m (part w o) /\
  num r lane m (part w o) = onum r lane m o.
Proof.
  intros Hw O. destruct o as [e|]; cbn [part onum ook] in *.
  - destruct O as (A & B & C). auto.
  - split; [cbn; auto|]. split; [reflexivity|]. split.
    + cbn [room mag width eval]. split; [|exact Logic.I]. rewrite (rd_0 T lane) by exact Hw.
      destruct m; cbn [fits]; [exact Logic.I| |]; cbn [Z.abs]; [|apply pow2_pos; lia].
      apply pow2_pos. lia.
    + apply (num_zero T), Hw.
Qed.

Theorem decompose_ok native wrap ptrs k :
  well n T true ptrs -> width ptrs = 64 -> every (tame n) false ptrs ->
  splats_add r ptrs -> room r lane Mod ptrs ->
  to_base_offsets n 64 native false wrap ptrs = Some k ->
  well n T false (c_base k) /\ width (c_var k) = 64 /\ width (c_const k) = 64 /\
  well n T true (c_var k) /\ well n T true (c_const k) /\ In (c_scale k) [1; 2; 4; 8] /\
  room r lane Mod (c_var k) /\
  call_addr r k lane = eval r ptrs lane.
Proof.
  intros W L G Sp R E. unfold to_base_offsets in E.
  destruct (base_offsets n 64 ptrs) as [[b off]|] eqn:B; [|discriminate].
  destruct (base_offsets_ok n T 64 ltac:(lia) ptrs b off ltac:(lia) W L G B) as (B1 & B2 & B3 & B4 & B5).
  destruct (B5 r lane Hlane Sp R) as [Ro Ev].
  destruct native.
  - pose proof (extract_ok n T r lane Hlane off Mod B3 Ro) as Sc.
    destruct (extract_scale n off) as [s v]. cbn [fst snd] in Sc. injection E as <-.
    destruct Sc as (S1 & S2 & S3 & S4 & _ & S6). cbn [c_base c_var c_const c_scale].
    rewrite B4 in S3, S6. cbn [width].
    split; [exact B1|]. split; [exact S3|]. split; [exact S3|]. split; [exact S2|].
    split; [cbn [well]; rewrite S3; split; [reflexivity|lia]|]. split; [exact S1|]. split; [exact S4|].
    unfold call_addr. cbn [c_base c_var c_const c_scale width eval]. rewrite S3.
    rewrite Ev. destruct (eval_num n T r lane off true Mod B3 Ro) as [Eo _].
    destruct (eval_num n T r lane v true Mod S2 S4) as [Evv _].
    rewrite B4 in Eo. rewrite S3 in Evv. rewrite S6 in Eo.
    rewrite (wraps_id 64 0) by (unfold in_s; cbn; lia).
    rewrite Z.add_0_r.
    destruct (wraps_ex 64 (eval r v lane) ltac:(lia)) as [k1 K1].
    destruct (wrapu_ex 64 (num r lane Mod v)) as [k2 K2]. rewrite <- Evv in K2.
    destruct (wrapu_ex 64 (s * num r lane Mod v)) as [k3 K3]. rewrite <- Eo in K3.
    rewrite K1, K2, K3. apply (wrapu_eq 64 _ _ ((k1 + k2) * s - k3)). ring.
  - pose proof (split_ok n T r lane wrap off Mod B3 Ro) as S.
    destruct (split_const wrap off) as [co vo]. destruct S as (N1 & _ & C & V).
    rewrite B4 in *.
    destruct (part_ok Mod 64 co ltac:(lia) C) as (C1 & C2 & C3 & C4).
    destruct (part_ok Mod 64 vo ltac:(lia) V) as (V1 & V2 & V3 & V4).
    pose proof (extract_ok n T r lane Hlane _ Mod V1 V3) as Sc.
    destruct (extract_scale n (part 64 vo)) as [s v]. cbn [fst snd] in Sc. injection E as <-.
    destruct Sc as (S1 & S2 & S3 & S4 & _ & S6). cbn [c_base c_var c_const c_scale].
    rewrite V2 in S3, S6.
    split; [exact B1|]. split; [exact S3|]. split; [exact C2|]. split; [exact S2|].
    split; [exact C1|]. split; [exact S1|]. split; [exact S4|].
    unfold call_addr. cbn [c_base c_var c_const c_scale]. rewrite S3, C2, Ev.
    destruct (eval_num n T r lane off true Mod B3 Ro) as [Eo _].
    destruct (eval_num n T r lane v true Mod S2 S4) as [Evv _].
    destruct (eval_num n T r lane _ true Mod C1 C3) as [Ec _].
    rewrite B4 in Eo. rewrite S3 in Evv. rewrite C2, C4 in Ec. rewrite V4 in S6.
    destruct (wraps_ex 64 (eval r v lane) ltac:(lia)) as [k1 K1].
    destruct (wraps_ex 64 (eval r (part 64 co) lane) ltac:(lia)) as [k4 K4].
    destruct (wrapu_ex 64 (num r lane Mod v)) as [k2 K2]. rewrite <- Evv in K2.
    destruct (wrapu_ex 64 (s * num r lane Mod v)) as [k3 K3].
    destruct (wrapu_ex 64 (onum r lane Mod vo)) as [k6 K6]. rewrite S6 in K6.
    destruct (wrapu_ex 64 (onum r lane Mod co)) as [k5 K5]. rewrite <- Ec in K5.
    destruct (wrapu_ex 64 (num r lane Mod off)) as [k7 K7]. rewrite <- Eo in K7.
    rewrite K1, K4, K2, K5, K7, <- N1.
    assert (Hv : onum r lane Mod vo = s * num r lane Mod v + (k3 - k6) * 2 ^ 64) by lia.
    rewrite Hv. apply (wrapu_eq 64 _ _ ((k1 + k2) * s + k4 + k5 - k7 - (k3 - k6))). ring.
Qed.

(** Offsets of 32 bits instead of 64. *)
Definition short (k : call) : Prop :=
  small 64 (eval r (c_var k) lane) /\ small 64 (eval r (c_const k) lane).

Lemma read_zext a : well n T true a -> width a = 32 ->
  small 64 (eval r (Cast ZExt 64 a) lane) ->
  wraps 32 (eval r a lane) = wraps 64 (eval r (Cast ZExt 64 a) lane).
Proof.
  intros W L. cbn [eval]. unfold cast_val.
  pose proof (eval_range n T true r a lane W) as Rg. rewrite L in Rg.
  assert (Rg' : in_u 64 (eval r a lane)) by (apply (in_u_mono 32 64); [lia|exact Rg]).
  rewrite (wrapu_id 64) by exact Rg'. intro S.
  rewrite <- (small_wraps32 _ Rg' S). rewrite wrapu_id by exact Rg. reflexivity.
Qed.

Lemma read_sext a : width a = 32 ->
  wraps 32 (eval r a lane) = wraps 64 (eval r (Cast SExt 64 a) lane).
Proof.
  intro L. cbn [eval]. unfold cast_val. rewrite wraps_wrapu, L by lia. symmetry.
  apply wraps_id; [lia|]. pose proof (wraps_range 32 (eval r a lane) ltac:(lia)) as H.
  unfold in_s in *. change (32 - 1) with 31 in H. change (64 - 1) with 63.
  assert (2 ^ 31 < 2 ^ 63) by (apply Z.pow_lt_mono_r; lia). lia.
Qed.

Lemma read_trunc e : well n T true e -> width e = 64 -> small 64 (eval r e lane) ->
  wraps 32 (eval r (Cast Trunc 32 e) lane) = wraps 64 (eval r e lane).
Proof.
  intros W L S. cbn [eval]. unfold cast_val. apply small_wraps32; [|exact S].
  rewrite <- L. eapply eval_range, W.
Qed.

Lemma offsets_32bit_ok v c v' c' :
  well n T true v -> well n T true c -> width v = 64 -> width c = 64 ->
  small 64 (eval r v lane) -> small 64 (eval r c lane) ->
  offsets_32bit n v c = Some (v', c') ->
  wraps (width v') (eval r v' lane) = wraps 64 (eval r v lane) /\
  wraps (width c') (eval r c' lane) = wraps 64 (eval r c lane).
Proof.
  intros Wv Wc Lv Lc Sv Sc E. unfold offsets_32bit in E. rewrite Lv, Lc in E.
  cbn [Z.eqb Pos.eqb] in E.
  assert (C : wraps 32 (eval r (Cast Trunc 32 c) lane) = wraps 64 (eval r c lane))
    by (apply read_trunc; assumption).
  assert (K : (if is_32bit_ints n v then Some (Cast Trunc 32 v, Cast Trunc 32 c) else None) = Some (v', c') ->
    wraps (width v') (eval r v' lane) = wraps 64 (eval r v lane) /\
    wraps (width c') (eval r c' lane) = wraps 64 (eval r c lane)).
  { destruct (is_32bit_ints n v); [|discriminate]. intro X. injection X as <- <-.
    split; [apply read_trunc; assumption|exact C]. }
  destruct v; try exact (K E).
  cbn [width] in Lv. subst w. cbn [well] in Wv. destruct Wv as (_ & Wa & _).
  destruct c0; try discriminate; (destruct (width v =? 32) eqn:W32; [|discriminate]);
    apply Z.eqb_eq in W32; injection E as <- <-; (split; [|exact C]); rewrite W32.
  - apply read_sext, W32.
  - apply read_zext; assumption.
Qed.

Lemma offsets_32bit_one_ok v v' :
  well n T true v -> width v = 64 -> small 64 (eval r v lane) ->
  offsets_32bit_one n v = Some v' ->
  wraps (width v') (eval r v' lane) = wraps 64 (eval r v lane).
Proof.
  intros Wv Lv Sv E. unfold offsets_32bit_one in E. rewrite Lv in E. cbn [Z.eqb Pos.eqb] in E.
  assert (K : (if is_32bit_safe n v then Some (Cast Trunc 32 v) else None) = Some v' ->
    wraps (width v') (eval r v' lane) = wraps 64 (eval r v lane)).
  { destruct (is_32bit_safe n v); [|discriminate]. intro X. injection X as <-.
    apply read_trunc; assumption. }
  destruct v; try exact (K E). destruct c; try exact (K E).
  destruct (width v =? 32) eqn:W32; [|exact (K E)].
  apply Z.eqb_eq in W32. injection E as <-. cbn [width] in Lv. subst w. rewrite W32.
  apply read_sext, W32.
Qed.

Theorem force32_ok native wrap ptrs k k' :
  well n T true ptrs -> width ptrs = 64 -> every (tame n) false ptrs ->
  splats_add r ptrs -> room r lane Mod ptrs ->
  to_base_offsets n 64 native false wrap ptrs = Some k ->
  to_base_offsets n 64 native true wrap ptrs = Some k' ->
  short k -> call_addr r k' lane = eval r ptrs lane.
Proof.
  intros W L G Sp R E E' [Sv Sc].
  destruct (decompose_ok native wrap ptrs k W L G Sp R E) as (D1 & D2 & D3 & D4 & D5 & _ & _ & <-).
  unfold to_base_offsets in E, E'.
  destruct (base_offsets n 64 ptrs) as [[b off]|]; [|discriminate].
  destruct native.
  - destruct (extract_scale n off) as [s v]. injection E as <-. cbn [c_var c_const c_base c_scale] in *.
    destruct (offsets_32bit_one n v) as [x|] eqn:O; injection E' as <-; [|reflexivity].
    unfold call_addr. cbn [c_var c_const c_base c_scale eval width].
    rewrite (offsets_32bit_one_ok v x D4 D2 Sv O), D2.
    assert (Wx : 0 < width x).
    { unfold offsets_32bit_one in O. rewrite D2 in O. cbn [Z.eqb Pos.eqb] in O.
      destruct v; try (destruct (is_32bit_safe n _); [|discriminate]; injection O as <-; cbn; lia).
      destruct c; try (destruct (is_32bit_safe n _); [|discriminate]; injection O as <-; cbn; lia).
      destruct (width v =? 32) eqn:E32.
      - apply Z.eqb_eq in E32. injection O as <-. lia.
      - destruct (is_32bit_safe n _); [|discriminate]; injection O as <-; cbn; lia. }
    rewrite (rd_0 T lane Sgn (width x) Wx : wraps (width x) 0 = 0).
    rewrite (rd_0 T lane Sgn 64 ltac:(lia) : wraps 64 0 = 0). reflexivity.
  - destruct (split_const wrap off) as [co vo].
    destruct (extract_scale n (part (width off) vo)) as [s v]. injection E as <-.
    cbn [c_var c_const c_base c_scale] in *.
    destruct (offsets_32bit n v (part (width off) co)) as [[v' c']|] eqn:O; injection E' as <-; [|reflexivity].
    destruct (offsets_32bit_ok _ _ v' c' D4 D5 D2 D3 Sv Sc O) as [A1 A2].
    unfold call_addr. cbn [c_var c_const c_base c_scale]. rewrite A1, A2, D2, D3. reflexivity.
Qed.

(** Moving more constants out of the varying offsets. *)
Theorem more_const_ok wrap k w :
  well n T true (c_var k) -> well n T true (c_const k) ->
  width (c_var k) = w -> width (c_const k) = w -> In (c_scale k) [1; 2; 4; 8] ->
  (w = 64 /\ room r lane Mod (c_var k) \/
   w = 32 /\ room r lane Sgn (c_var k) /\
     mag r lane Sgn (c_var k) * c_scale k + Z.abs (wraps 32 (eval r (c_const k) lane)) < 2 ^ 31) ->
  call_addr r (get_more_const n wrap k) lane = call_addr r k lane.
Proof.
  intros Wv Wc Lv Lc Hs H. unfold get_more_const.
  assert (Hw : 0 < w) by (rewrite <- Lv; eapply well_width, Wv).
  assert (Hsu : in_u w (c_scale k)).
  { unfold in_u. destruct H as [[-> _]|[-> _]]; cbn in Hs; cbn; lia. }
  assert (G : call_addr r
    match split_const wrap (c_var k) with
    | (None, _) => k
    | (Some co, vo) =>
        mkCall (c_base k) (part (width (c_var k)) vo) (c_scale k)
          (Bin Add false (width (c_var k)) (Bin Mul false (width (c_var k)) co (Data (width (c_var k)) (repeat (c_scale k) n))) (c_const k))
    end lane = call_addr r k lane).
  2:{ destruct (c_var k); try exact G. reflexivity. }
  destruct (split_const wrap (c_var k)) as [[co|] vo] eqn:S; [|reflexivity].
  assert (Nx : nth lane (repeat (c_scale k) n) 0 = c_scale k).
  { rewrite (nth_indep _ 0 (c_scale k)) by (rewrite repeat_length; lia). apply nth_repeat. }
  unfold call_addr. cbn [c_base c_var c_scale c_const width]. rewrite Lv, Lc.
  cbn [eval]. unfold bop_val. rewrite Nx, (wrapu_id w (c_scale k) Hsu).
  destruct H as [[-> R]|(-> & R & F)].
  - pose proof (split_ok n T r lane wrap (c_var k) Mod Wv R) as X. rewrite S, Lv in X.
    destruct X as (N1 & _ & C & V).
    destruct (part_ok Mod 64 vo ltac:(lia) V) as (V1 & V2 & V3 & V4). rewrite V2.
    destruct C as (C1 & C2 & C3). cbn [onum] in N1.
    destruct (eval_num n T r lane _ true Mod Wv R) as [E1 _].
    destruct (eval_num n T r lane _ true Mod V1 V3) as [E2 _].
    destruct (eval_num n T r lane _ true Mod C1 C3) as [E3 _].
    rewrite Lv in E1. rewrite V2, V4 in E2. rewrite C2 in E3.
    destruct (wrapu_ex 64 (num r lane Mod (c_var k))) as [k1 K1]. rewrite <- E1 in K1.
    destruct (wrapu_ex 64 (onum r lane Mod vo)) as [k2 K2]. rewrite <- E2 in K2.
    destruct (wrapu_ex 64 (num r lane Mod co)) as [k3 K3]. rewrite <- E3 in K3.
    destruct (wraps_ex 64 (eval r (c_var k) lane) ltac:(lia)) as [k4 K4].
    destruct (wraps_ex 64 (eval r (part 64 vo) lane) ltac:(lia)) as [k5 K5].
    destruct (wraps_ex 64 (eval r (c_const k) lane) ltac:(lia)) as [k6 K6].
    rewrite wrapu_add_l, wraps_wrapu by lia.
    destruct (wraps_ex 64 (eval r co lane * c_scale k + eval r (c_const k) lane) ltac:(lia)) as [k7 K7].
    rewrite K4, K5, K6, K7, K1, K2, K3, <- N1.
    apply (wrapu_eq 64 _ _ ((k5 + k2) * c_scale k + k3 * c_scale k + k7 - (k4 + k1) * c_scale k - k6)). ring.
  - pose proof (split_ok n T r lane wrap (c_var k) Sgn Wv R) as X. rewrite S, Lv in X.
    destruct X as (N1 & M1 & C & V).
    destruct (part_ok Sgn 32 vo ltac:(lia) V) as (V1 & V2 & V3 & V4). rewrite V2.
    pose proof (omag_nonneg n T r lane Sgn 32 vo V) as Mv.
    destruct C as (C1 & C2 & C3). cbn [onum omag] in *.
    destruct (eval_num n T r lane _ true Sgn Wv R) as [_ E1].
    destruct (eval_num n T r lane _ true Sgn V1 V3) as [_ E2].
    destruct (eval_num n T r lane _ true Sgn C1 C3) as [_ E3].
    specialize (E1 ltac:(discriminate)). specialize (E2 ltac:(discriminate)). specialize (E3 ltac:(discriminate)).
    rewrite Lv in E1. rewrite V2, V4 in E2. rewrite C2 in E3. cbn [rd] in E1, E2, E3.
    rewrite E1, E2.
    pose proof (num_mag n T r lane co true Sgn C1) as Mc.
    rewrite wrapu_add_l, wraps_wrapu by lia.
    assert (Sc : wraps 32 (eval r co lane * c_scale k + eval r (c_const k) lane) =
                 num r lane Sgn co * c_scale k + wraps 32 (eval r (c_const k) lane)).
    { rewrite <- E3.
      transitivity (wraps 32 (wraps 32 (eval r co lane) * c_scale k + wraps 32 (eval r (c_const k) lane))).
      - apply wraps_congr.
        destruct (wraps_ex 32 (eval r co lane) ltac:(lia)) as [k1 ->].
        destruct (wraps_ex 32 (eval r (c_const k) lane) ltac:(lia)) as [k2 ->].
        apply (wrapu_eq 32 _ _ (- k1 * c_scale k - k2)). ring.
      - apply wraps_id; [lia|]. rewrite E3. unfold in_s. change (32 - 1) with 31.
        assert (1 <= c_scale k) by (cbn in Hs; lia).
        assert (Z.abs (num r lane Sgn co * c_scale k) <= mag r lane Sgn (c_var k) * c_scale k).
        { rewrite Z.abs_mul, (Z.abs_eq (c_scale k)) by lia. apply Z.mul_le_mono_nonneg_r; lia. }
        lia. }
    rewrite Sc, <- N1. f_equal. ring.
Qed.

End Calls.

(** ** Poison *)

Lemma split_poison r lane e : forall c v, split_const true e = (c, v) ->
  (forall x, c = Some x -> overflows r x lane = true -> overflows r e lane = true) /\
  (forall x, v = Some x -> overflows r x lane = true -> overflows r e lane = true).
Proof.
  induction e; intros co vo E; cbn [split_const] in E;
    try (injection E as <- <-; split; intros x X; [discriminate|injection X as <-; auto]);
    try (injection E as <- <-; split; intros x X; [injection X as <-; auto|discriminate]).
  - destruct (split_const true e1) as [c0 v0]. destruct (split_const true e2) as [c1 v1].
    destruct (IHe1 c0 v0 eq_refl) as [C0 V0]. destruct (IHe2 c1 v1 eq_refl) as [C1 V1].
    assert (Add2 : forall a b x, add_parts w a b = Some x ->
      (forall y, a = Some y -> overflows r y lane = true -> overflows r e1 lane = true) ->
      (forall y, b = Some y -> overflows r y lane = true -> overflows r e2 lane = true) ->
      overflows r x lane = true -> overflows r e1 lane || overflows r e2 lane = true).
    { intros a b x X A B O. unfold add_parts in X. apply orb_true_iff.
      destruct (is_zero a); [right; eapply B; eassumption|].
      destruct (is_zero b); [left; eapply A; eassumption|].
      destruct a as [ya|]; [|discriminate]. destruct b as [yb|]; [|discriminate].
      injection X as <-. cbn [overflows andb] in O. rewrite orb_false_r in O.
      apply orb_true_iff in O. destruct O as [O|O]; [left; eapply A; eauto|right; eapply B; eauto]. }
    assert (Mul2 : forall a b x, mul_parts w a b = Some x ->
      (forall y, a = Some y -> overflows r y lane = true -> overflows r e1 lane = true) ->
      (forall y, b = Some y -> overflows r y lane = true -> overflows r e2 lane = true) ->
      overflows r x lane = true -> overflows r e1 lane || overflows r e2 lane = true).
    { intros a b x X A B O. apply orb_true_iff.
      destruct a as [ya|]; [|discriminate]. destruct b as [yb|]; [|discriminate].
      injection X as <-. cbn [overflows andb] in O. rewrite orb_false_r in O.
      apply orb_true_iff in O. destruct O as [O|O]; [left; eapply A; eauto|right; eapply B; eauto]. }
    assert (Pl : forall a b x (Q : Prop), plus_parts w a b = Some x ->
      (forall y, a = Some y -> overflows r y lane = true -> Q) ->
      (forall y, b = Some y -> overflows r y lane = true -> Q) ->
      overflows r x lane = true -> Q).
    { intros a b x Q X A B O. destruct a as [ya|]; destruct b as [yb|]; cbn [plus_parts] in X;
        try discriminate; injection X as <-; try (eapply A; eauto; fail); try (eapply B; eauto; fail).
      cbn [overflows andb] in O. rewrite orb_false_r in O. apply orb_true_iff in O.
      destruct O as [O|O]; [eapply A; eauto|eapply B; eauto]. }
    assert (Wh : forall b, overflows r e1 lane || overflows r e2 lane = true ->
                 overflows r e1 lane || overflows r e2 lane || b = true).
    { intros b H. rewrite H. reflexivity. }
    destruct (is_add o).
    + injection E as <- <-. split; intros x X O; cbn [overflows]; apply Wh; eapply Add2; eauto.
    + destruct o; try (injection E as <- <-; split; intros x X; [discriminate|injection X as <-; auto]).
      * injection E as <- <-. split; intros x X O; cbn [overflows]; apply Wh.
        -- eapply Mul2; eauto.
        -- eapply Pl; [exact X| | |exact O].
           ++ intros y Y Oy. eapply Pl; [exact Y| | |exact Oy].
              ** intros z Zz Oz. eapply Mul2; eauto.
              ** intros z Zz Oz. eapply Mul2; eauto.
           ++ intros z Zz Oz. eapply Mul2; eauto.
      * destruct v1; [injection E as <- <-; split; intros x X; [discriminate|injection X as <-; auto]|].
        destruct c0 as [c0|]; [|injection E as <- <-; split; intros x X; [discriminate|injection X as <-; auto]].
        destruct c1 as [c1|]; [|injection E as <- <-; split; intros x X; [discriminate|injection X as <-; auto]].
        destruct v0 as [v0|]; [|injection E as <- <-; split; intros x X; [injection X as <-; auto|discriminate]].
        injection E as <- <-.
        split; intros x X O; injection X as <-; cbn [overflows andb] in O; rewrite orb_false_r in O;
          apply orb_true_iff in O; cbn [overflows]; apply Wh, orb_true_iff;
          (destruct O as [O|O]; [left; eauto|right; eauto]).
  - destruct (split_const true e) as [c0 v0]. destruct (IHe c0 v0 eq_refl) as [C0 V0].
    injection E as <- <-.
    split; intros x X O; [destruct c0 as [y|]|destruct v0 as [y|]]; try discriminate;
      injection X as <-; cbn [overflows] in *; eauto.
Qed.

(** ** Gathers and scatters that become loads and stores *)

Lemma found_ext n mem mask a b :
  (forall i, (i < n)%nat -> mask i = true -> a i = b i) -> found n mem mask a = found n mem mask b.
Proof.
  intro H. apply map_ext_in. intros i I. apply in_seq in I.
  destruct (mask i) eqn:M; [|reflexivity]. rewrite (H i ltac:(lia) M). reflexivity.
Qed.

Lemma touched_ext n mask a b :
  (forall i, (i < n)%nat -> mask i = true -> a i = b i) -> touched n mask a = touched n mask b.
Proof.
  intro H. apply map_ext_in. intros i I. apply filter_In in I. destruct I as [I M].
  apply in_seq in I. apply H; [lia|exact M].
Qed.

Lemma stored_ext n mem mask a b val :
  (forall i, (i < n)%nat -> mask i = true -> a i = b i) ->
  stored n mem mask a val = stored n mem mask b val.
Proof.
  intro H. unfold stored.
  assert (G : forall l m, (forall i, In i l -> (i < n)%nat) ->
    fold_left (fun m i => if mask i then fun x => if x =? a i then Some (val i) else m x else m) l m =
    fold_left (fun m i => if mask i then fun x => if x =? b i then Some (val i) else m x else m) l m).
  { induction l as [|i l IH]; intros m Hl; [reflexivity|]. cbn [fold_left].
    rewrite IH by (intros j J; apply Hl; right; exact J).
    destruct (mask i) eqn:M; [|reflexivity].
    rewrite (H i (Hl i (or_introl eq_refl)) M). reflexivity. }
  apply G. intros i I. apply in_seq in I. lia.
Qed.

Section LoadStore.

Variables (n : nat) (T : nat -> bool * Z) (r : env) (k : call) (factored : bool) (step w : Z).
Let off := full_offsets n factored k.

Hypothesis Wb : well n T false (c_base k).
Hypothesis Wv : well n T true (c_var k).
Hypothesis Lv : width (c_var k) = w.
Hypothesis Wc : well n T true (c_const k).
Hypothesis Lc : width (c_const k) = w.
Hypothesis Hs : In (c_scale k) [1; 2; 4; 8].
Hypothesis Hn : (0 < n)%nat.
Hypothesis Hf : factored = false -> forall i, (i < n)%nat -> eval r (c_const k) i = 0.

(** 64-bit offsets, or 32-bit ones that stay within the range of an int. *)
Hypothesis Hw : w = 64 \/ w = 32 /\ forall i, (i < n)%nat -> - 2 ^ 31 <= offset r k w i < 2 ^ 31.

Lemma off_width : width off = w.
Proof.
  unfold off, full_offsets. rewrite Lv. destruct factored; [reflexivity|].
  destruct (c_scale k =? 1); [exact Lv|reflexivity].
Qed.

Lemma off_eval i : (i < n)%nat -> eval r off i = wrapu w (offset r k w i).
Proof.
  intro Hi. unfold off, full_offsets. rewrite Lv.
  assert (W0 : 0 < w) by lia.
  assert (Nx : nth i (repeat (c_scale k) n) 0 = c_scale k).
  { rewrite (nth_indep _ 0 (c_scale k)) by (rewrite repeat_length; lia). apply nth_repeat. }
  assert (Sc : in_u w (c_scale k)).
  { unfold in_u. destruct Hw as [->|[-> _]]; cbn in Hs; cbn; lia. }
  unfold offset.
  destruct (wraps_ex w (eval r (c_var k) i) W0) as [k1 K1].
  destruct (wraps_ex w (eval r (c_const k) i) W0) as [k2 K2].
  destruct factored eqn:F.
  - cbn [eval scale_vec]. unfold bop_val. rewrite Nx, (wrapu_id w (c_scale k) Sc), wrapu_add_l, K1, K2.
    apply (wrapu_eq w _ _ (- k1 * c_scale k - k2)). ring.
  - rewrite (Hf eq_refl i Hi) in *. rewrite (rd_0 T i Sgn w W0 : wraps w 0 = 0), Z.add_0_r.
    destruct (c_scale k =? 1) eqn:E1.
    + apply Z.eqb_eq in E1. rewrite E1, Z.mul_1_r, wrapu_wraps by lia. symmetry. apply wrapu_id.
      rewrite <- Lv. eapply eval_range, Wv.
    + cbn [eval scale_vec]. unfold bop_val. rewrite Nx, (wrapu_id w (c_scale k) Sc), K1.
      apply (wrapu_eq w _ _ (- k1 * c_scale k)). ring.
Qed.

Lemma addr_off i : call_addr r k i = wrapu 64 (eval r (c_base k) i + offset r k w i).
Proof. unfold call_addr, offset. rewrite Lv, Lc. f_equal. lia. Qed.

(** The start of the load or store of lane [i] is that lane's address. *)
Lemma start_addr i : (i < n)%nat -> wrapu 64 (start r k off i) = call_addr r k i.
Proof.
  intro Hi. rewrite addr_off. unfold start. rewrite off_width, (off_eval i Hi).
  destruct Hw as [Ew|[Ew R]]; rewrite Ew in *.
  - rewrite wraps_wrapu by lia. destruct (wraps_ex 64 (offset r k 64 i) ltac:(lia)) as [q ->].
    apply (wrapu_eq 64 _ _ q). ring.
  - rewrite wraps_wrapu by lia. rewrite wraps_id; [reflexivity|lia|].
    unfold in_s. change (32 - 1) with 31. apply R, Hi.
Qed.

Lemma base_same i j : eval r (c_base k) i = eval r (c_base k) j.
Proof. eapply scalar_eval, Wb. Qed.

Lemma equal_addr i : lanes_equal r n off -> (i < n)%nat -> call_addr r k i = one_addr r k off i.
Proof.
  intros E Hi. rewrite <- (start_addr i Hi). unfold one_addr, start.
  rewrite (base_same i 0%nat), (E i 0%nat Hi Hn). reflexivity.
Qed.

(** With 32-bit offsets, neighbouring lanes must not be half the range apart. *)
Hypothesis Hj : w = 32 -> forall i, (S i < n)%nat -> Z.abs (offset r k w (S i) - offset r k w i) < 2 ^ 31.

Lemma linear_addr s : Z.abs s < 128 -> lanes_linear r n s off ->
  forall i, (i < n)%nat ->
  call_addr r k i = wrapu 64 (start r k off 0 + Z.of_nat i * s).
Proof.
  intros Hs' E i Hi. rewrite <- (start_addr i Hi). unfold start.
  rewrite (base_same i 0%nat), off_width.
  assert (W0 : 0 < w) by lia.
  pose proof (E i Hi) as Ei. rewrite off_width in Ei.
  destruct Hw as [Ew|[Ew R]].
  - rewrite Ei, Ew, wraps_wrapu by lia.
    destruct (wraps_ex 64 (eval r off 0 + Z.of_nat i * s) ltac:(lia)) as [q1 ->].
    destruct (wraps_ex 64 (eval r off 0) ltac:(lia)) as [q2 ->].
    apply (wrapu_eq 64 _ _ (q1 - q2)). ring.
  - assert (Rd : forall j, (j < n)%nat -> wraps w (eval r off j) = offset r k w j).
    { intros j Hj'. rewrite (off_eval j Hj'), wraps_wrapu by lia. rewrite Ew in *.
      apply wraps_id; [lia|]. unfold in_s. change (32 - 1) with 31. apply R, Hj'. }
    rewrite (Rd i Hi), (Rd 0%nat Hn). f_equal. rewrite <- Z.add_assoc. f_equal.
    clear Ei. revert Hi. induction i as [|i IH]; intro Hi; [lia|].
    specialize (IH ltac:(lia)). pose proof (Hj Ew i Hi) as J.
    assert (offset r k w (S i) = offset r k w i + s); [|lia].
    pose proof (E i ltac:(lia)) as E1. pose proof (E (S i) Hi) as E2.
    rewrite off_width in E1, E2.
    destruct (wrapu_ex w (eval r off 0 + Z.of_nat i * s)) as [q1 K1]. rewrite <- E1 in K1.
    destruct (wrapu_ex w (eval r off 0 + Z.of_nat (S i) * s)) as [q2 K2]. rewrite <- E2 in K2.
    destruct (wraps_ex w (eval r off i) W0) as [q3 K3]. rewrite (Rd i) in K3 by lia.
    destruct (wraps_ex w (eval r off (S i)) W0) as [q4 K4]. rewrite (Rd (S i) Hi) in K4.
    rewrite Ew in *. replace (Z.of_nat (S i)) with (Z.of_nat i + 1) in K2 by lia.
    apply (exact_step 32 _ _ s (q4 + q2 - q1 - q3)); [lia|exact J| |lia].
    assert (128 < 2 ^ (32 - 1)) by reflexivity. lia.
Qed.

Lemma reversed_ok : Z.abs step < 128 -> lanes_linear r n (- step) off ->
  forall i, (i < n)%nat -> call_addr r k i = reversed_addr n r k off step i.
Proof.
  intros H E i Hi. unfold reversed_addr.
  rewrite (linear_addr (- step)) by (assumption || lia).
  pose proof (start_addr (n - 1) ltac:(lia)) as A.
  rewrite (linear_addr (- step)) in A by (assumption || lia).
  rewrite <- (wrapu_add_l 64 (start r k off (n - 1))), A, wrapu_add_l. f_equal.
  replace (Z.of_nat (n - 1)) with (Z.of_nat n - 1) by lia.
  replace (Z.of_nat (n - 1 - i)) with (Z.of_nat n - 1 - Z.of_nat i) by lia. ring.
Qed.

End LoadStore.
