(** Proofs about the decomposition of addresses (C37). *)

From Coq Require Import ZArith List Bool Lia.
From Verif Require Import Bits AddrModel AddrSpec AddrProofs AddrProofs2 AddrProofs3.
Import ListNotations.
Open Scope Z_scope.

(** ** Numbers behind the bits *)

(** What the expression would be without any overflow. *)
Fixpoint num (r : env) (lane : nat) (m : mode) (e : exp) : Z :=
  let opaque := rd m (width e) (eval r e lane) in
  match e with
  | Bin o _ w a b =>
      if is_add o then num r lane m a + num r lane m b
      else match o with
      | Mul => num r lane m a * num r lane m b
      | Shl => num r lane m a * 2 ^ eval r b lane
      | _ => opaque
      end
  | Cast Trunc _ a => num r lane m a
  | Cast SExt _ a => num r lane Sgn a
  | Cast ZExt _ a => num r lane Uns a
  | _ => opaque
  end.

Lemma fits_le m w x y : x <= y -> fits m w y -> fits m w x.
Proof. destruct m; cbn [fits]; lia. Qed.

Lemma rd_fit m w x : 0 < w -> m <> Mod -> fits m w (Z.abs x) -> (m = Uns -> 0 <= x) ->
  rd m w (wrapu w x) = x.
Proof.
  intros Hw M F U. destruct m; cbn [rd fits] in *; [congruence| |].
  - rewrite wraps_wrapu by lia. apply wraps_id; [lia|]. unfold in_s. lia.
  - apply wrapu_id. unfold in_u. specialize (U eq_refl). lia.
Qed.

Lemma wrapu_rd m w x : 0 < w -> in_u w x -> wrapu w (rd m w x) = x.
Proof.
  intros Hw R. destruct m; cbn [rd]; try (apply wrapu_id, R).
  rewrite wrapu_wraps by lia. apply wrapu_id, R.
Qed.

Lemma wrapu_mul_r w x y : wrapu w (x * wrapu w y) = wrapu w (x * y).
Proof. unfold wrapu. apply Zmult_mod_idemp_r. Qed.

Lemma wrapu_mul_l w x y : wrapu w (wrapu w x * y) = wrapu w (x * y).
Proof. unfold wrapu. apply Zmult_mod_idemp_l. Qed.

Section Num.

Variables (n : nat) (T : nat -> bool * Z) (r : env) (lane : nat).

Notation num := (num r lane).
Notation mag := (mag r lane).
Notation room := (room r lane).

Lemma num_mag e : forall v m, well n T v e -> Z.abs (num m e) <= mag m e.
Proof.
  induction e; intros v md W; cbn [AddrProofs4.num AddrSpec.mag]; cbv zeta; try lia.
  - cbn [well] in W. destruct W as (Hw & W1 & W2 & _).
    specialize (IHe1 v md W1). specialize (IHe2 v md W2).
    destruct (is_add o); [lia|].
    destruct o; try lia.
    + rewrite Z.abs_mul. apply Z.mul_le_mono_nonneg; lia.
    + rewrite Z.abs_mul, (Z.abs_eq (2 ^ _)) by (apply Z.pow_nonneg; lia).
      apply Z.mul_le_mono_nonneg_r; [apply Z.pow_nonneg; lia|exact IHe1].
  - cbn [well] in W. destruct W as (Hw & W & _).
    destruct c; try lia; eapply IHe; eassumption.
Qed.

Lemma mag_nonneg v m e : well n T v e -> 0 <= mag m e.
Proof. intro W. pose proof (num_mag e v m W). lia. Qed.

Lemma num_uns e : forall v, well n T v e -> room Uns e -> 0 <= num Uns e.
Proof.
  induction e; intros v W R; cbn [AddrProofs4.num AddrSpec.room] in *; cbv zeta in *;
    try (cbn [rd]; apply (eval_range n T v r _ lane W)).
  - pose proof (eval_range n T v r (Bin o nsw w e1 e2) lane W) as Rg.
    cbn [well] in W. destruct W as (Hw & W1 & W2 & _). destruct R as (_ & _ & R).
    destruct (is_add o).
    + destruct R as [R1 R2]. specialize (IHe1 v W1 R1). specialize (IHe2 v W2 R2). lia.
    + destruct o; try apply Rg.
      * destruct R as [R1 R2]. specialize (IHe1 v W1 R1). specialize (IHe2 v W2 R2). nia.
      * destruct R as [R1 R2]. specialize (IHe1 v W1 R1).
        apply Z.mul_nonneg_nonneg; [lia|apply Z.pow_nonneg; lia].
  - pose proof (eval_range n T v r (Cast c w e) lane W) as Rg.
    cbn [well] in W. destruct W as (Hw & W & _). destruct R as (_ & R).
    destruct c; try apply Rg.
    + eapply IHe; eassumption.
    + destruct R as [R _]. congruence.
    + eapply IHe; eassumption.
Qed.

(** With room, the bits are those of the number, and reading them gives it. *)
Lemma eval_num : forall e v m, well n T v e -> room m e ->
  eval r e lane = wrapu (width e) (num m e) /\
  (m <> Mod -> rd m (width e) (eval r e lane) = num m e).
Proof.
  assert (K : forall e v m, well n T v e -> room m e ->
    eval r e lane = wrapu (width e) (num m e) ->
    m <> Mod -> rd m (width e) (eval r e lane) = num m e).
  { intros e v m W R E M. rewrite E. apply rd_fit; [eapply well_width, W|exact M| |].
    - assert (F : fits m (width e) (mag m e)) by (destruct e; apply R).
      eapply fits_le; [|exact F]. eapply num_mag, W.
    - intros ->. eapply num_uns; eassumption. }
  assert (O : forall e v m, well n T v e -> num m e = rd m (width e) (eval r e lane) ->
    eval r e lane = wrapu (width e) (num m e) /\
    (m <> Mod -> rd m (width e) (eval r e lane) = num m e)).
  { intros e v m W E. split; [|intros _; symmetry; exact E].
    rewrite E. symmetry. apply wrapu_rd; [eapply well_width, W|eapply eval_range, W]. }
  induction e; intros v md W R; try (eapply O; [exact W|reflexivity]).
  - (* Bin *)
    assert (G : eval r (Bin o nsw w e1 e2) lane = wrapu w (num md (Bin o nsw w e1 e2))).
    { assert (W' := W). assert (R' := R). cbn [AddrSpec.room] in R. destruct R as (_ & Hor & R).
      cbn [well] in W. destruct W as (Hw & W1 & W2 & L1 & L2).
      destruct (is_add o) eqn:A.
      - destruct R as [R1 R2].
        destruct (IHe1 v md W1 R1) as [E1 _]. destruct (IHe2 v md W2 R2) as [E2 _].
        cbn [AddrProofs4.num]. cbv zeta. rewrite A.
        transitivity (wrapu w (eval r e1 lane + eval r e2 lane)).
        + cbn [eval]. apply add_val; [exact A|]. intros d -> ->. apply Hor. reflexivity.
        + rewrite E1, E2, L1, L2. apply wrapu_add.
      - destruct o; try discriminate;
          try (cbn [AddrProofs4.num]; cbv zeta; rewrite A; symmetry; apply wrapu_rd;
               [exact Hw|exact (eval_range n T v r _ lane W')]).
        + destruct R as [R1 R2].
          destruct (IHe1 v md W1 R1) as [E1 _]. destruct (IHe2 v md W2 R2) as [E2 _].
          cbn [AddrProofs4.num is_add eval]. unfold bop_val. rewrite E1, E2, L1, L2.
          apply wrapu_mul.
        + destruct R as [R1 R2]. destruct (IHe1 v md W1 R1) as [E1 _].
          cbn [AddrProofs4.num is_add eval]. unfold bop_val. rewrite E1, L1.
          apply wrapu_mul_l. }
    split; [exact G|]. intro M. exact (K _ v md W R G M).
  - (* Cast *)
    assert (G : eval r (Cast c w e) lane = wrapu w (num md (Cast c w e))).
    { assert (W' := W). cbn [AddrSpec.room] in R. destruct R as (_ & R).
      cbn [well] in W. destruct W as (Hw & W1 & Wc).
      pose proof (well_width n T v e W1) as We.
      destruct c; cbn [AddrProofs4.num]; cbv zeta.
      - destruct (IHe v md W1 R) as [E _]. cbn [eval]. unfold cast_val. rewrite E.
        apply wrapu_narrow. lia.
      - destruct R as [M R]. destruct (IHe v Sgn W1 R) as [_ E]. cbn [eval]. unfold cast_val.
        rewrite <- E by discriminate. reflexivity.
      - destruct (IHe v Uns W1 R) as [_ E]. cbn [eval]. unfold cast_val.
        rewrite <- E by discriminate. reflexivity.
      - symmetry. apply wrapu_rd; [exact Hw|exact (eval_range n T v r _ lane W')]. }
    split; [exact G|]. intro M. exact (K _ v md W R G M).
Qed.

(** ** Constant and variable parts *)

Definition onum (m : mode) (o : option exp) : Z := match o with Some e => num m e | None => 0 end.
Definition omag (m : mode) (o : option exp) : Z := match o with Some e => mag m e | None => 0 end.
Definition ook (m : mode) (w : Z) (o : option exp) : Prop :=
  match o with Some e => well n T true e /\ width e = w /\ room m e | None => True end.

Lemma rd_0 m w : 0 < w -> rd m w 0 = 0.
Proof.
  intro H. destruct m; cbn [rd]; try reflexivity. apply wraps_id; [lia|].
  unfold in_s. pose proof (pow2_pos (w - 1) ltac:(lia)). lia.
Qed.

Lemma num_zero m w : 0 < w -> num m (Zero w) = 0.
Proof. intro H. cbn. apply rd_0, H. Qed.

Lemma omag_nonneg m w o : ook m w o -> 0 <= omag m o.
Proof. destruct o; cbn [omag ook]; [|lia]. intros (W & _). eapply mag_nonneg, W. Qed.

Lemma is_zero_num m w o : ook m w o -> is_zero o = true -> onum m o = 0 /\ omag m o = 0.
Proof.
  destruct o as [e|]; [|split; reflexivity]. destruct e; try discriminate.
  intros ((_ & H) & _) _. cbn [onum omag]. cbn. rewrite rd_0 by exact H. split; reflexivity.
Qed.

Lemma add_node m w a b :
  0 < w -> well n T true a -> well n T true b -> width a = w -> width b = w ->
  room m a -> room m b -> fits m w (mag m a + mag m b) ->
  ook m w (Some (Bin Add false w a b)).
Proof.
  intros. cbn [ook well AddrSpec.room width AddrSpec.mag is_add].
  intuition; subst; try assumption; discriminate.
Qed.

Lemma mul_node m w a b :
  0 < w -> well n T true a -> well n T true b -> width a = w -> width b = w ->
  room m a -> room m b -> fits m w (mag m a * mag m b) ->
  ook m w (Some (Bin Mul false w a b)).
Proof.
  intros. cbn [ook well AddrSpec.room width AddrSpec.mag is_add].
  intuition; subst; try assumption; discriminate.
Qed.

Lemma add_parts_ok m w x y :
  0 < w -> ook m w x -> ook m w y -> fits m w (omag m x + omag m y) ->
  onum m (add_parts w x y) = onum m x + onum m y /\
  omag m (add_parts w x y) = omag m x + omag m y /\ ook m w (add_parts w x y).
Proof.
  intros Hw X Y F. unfold add_parts.
  destruct (is_zero x) eqn:Zx.
  { destruct (is_zero_num m w x X Zx) as [A B]. rewrite A, B. auto. }
  destruct (is_zero y) eqn:Zy.
  { destruct (is_zero_num m w y Y Zy) as [A B]. rewrite A, B, !Z.add_0_r. auto. }
  destruct x as [a|]; [|discriminate]. destruct y as [b|]; [|discriminate].
  split; [reflexivity|]. split; [reflexivity|].
  destruct X as (Wa & La & Ra). destruct Y as (Wb & Lb & Rb). apply add_node; assumption.
Qed.

Lemma plus_parts_ok m w x y :
  0 < w -> ook m w x -> ook m w y -> fits m w (omag m x + omag m y) ->
  onum m (plus_parts w x y) = onum m x + onum m y /\
  omag m (plus_parts w x y) = omag m x + omag m y /\ ook m w (plus_parts w x y).
Proof.
  intros Hw X Y F. destruct x as [a|]; destruct y as [b|]; cbn [plus_parts onum omag];
    try (rewrite ?Z.add_0_r, ?Z.add_0_l; auto; fail).
  split; [reflexivity|]. split; [reflexivity|].
  destruct X as (Wa & La & Ra). destruct Y as (Wb & Lb & Rb). apply add_node; assumption.
Qed.

Lemma mul_parts_ok m w x y :
  0 < w -> ook m w x -> ook m w y -> fits m w (omag m x * omag m y) ->
  onum m (mul_parts w x y) = onum m x * onum m y /\
  omag m (mul_parts w x y) = omag m x * omag m y /\ ook m w (mul_parts w x y).
Proof.
  intros Hw X Y F. destruct x as [a|]; destruct y as [b|]; cbn [mul_parts onum omag ook] in *;
    rewrite ?Z.mul_0_r, ?Z.mul_0_l; auto.
  split; [reflexivity|]. split; [reflexivity|].
  destruct X as (Wa & La & Ra). destruct Y as (Wb & Lb & Rb). apply mul_node; assumption.
Qed.

Lemma room_fits m e : room m e -> fits m (width e) (mag m e).
Proof. destruct e; intro R; apply R. Qed.

Lemma cast_part c w m m' o v :
  0 < w -> (c = Trunc /\ m' = m \/ c = SExt /\ m' = Sgn /\ m <> Uns \/ c = ZExt /\ m' = Uns) ->
  ook m' v o -> match c with Trunc => w <= v | _ => v <= w end ->
  fits m w (omag m' o) ->
  onum m (option_map (Cast c w) o) = onum m' o /\
  omag m (option_map (Cast c w) o) = omag m' o /\ ook m w (option_map (Cast c w) o).
Proof.
  intros Hw C X L F. destruct o as [a|]; cbn [option_map onum omag ook] in *; [|auto].
  destruct X as (Wa & La & Ra). subst v.
  destruct C as [[-> ->]|[(-> & -> & M)|[-> ->]]];
    cbn [AddrProofs4.num AddrSpec.mag AddrSpec.room well width]; auto 10.
Qed.

Lemma split_ok wrap e : forall m, well n T true e -> room m e ->
  let '(c, v) := split_const wrap e in
  onum m c + onum m v = num m e /\ omag m c + omag m v <= mag m e /\
  ook m (width e) c /\ ook m (width e) v.
Proof.
  induction e; intros md W R.
  1-5, 8-11: cbn [split_const onum omag ook]; (split; [lia|]); (split; [lia|]); (split; auto).
  - (* Bin *)
    assert (KV : onum md None + onum md (Some (Bin o nsw w e1 e2)) = num md (Bin o nsw w e1 e2) /\
      omag md None + omag md (Some (Bin o nsw w e1 e2)) <= mag md (Bin o nsw w e1 e2) /\
      ook md (width (Bin o nsw w e1 e2)) None /\ ook md (width (Bin o nsw w e1 e2)) (Some (Bin o nsw w e1 e2))).
    { cbn [onum omag ook]. (split; [lia|]); (split; [lia|]); (split; auto). }
    assert (KC : onum md (Some (Bin o nsw w e1 e2)) + onum md None = num md (Bin o nsw w e1 e2) /\
      omag md (Some (Bin o nsw w e1 e2)) + omag md None <= mag md (Bin o nsw w e1 e2) /\
      ook md (width (Bin o nsw w e1 e2)) (Some (Bin o nsw w e1 e2)) /\ ook md (width (Bin o nsw w e1 e2)) None).
    { cbn [onum omag ook]. (split; [lia|]); (split; [lia|]); (split; auto). }
    pose proof (room_fits md _ R) as F. cbn [width] in F.
    assert (W' := W). cbn [well] in W'. destruct W' as (Hw & W1 & W2 & L1 & L2).
    assert (R' := R). cbn [AddrSpec.room] in R'. destruct R' as (_ & _ & R').
    cbn [split_const].
    destruct (split_const wrap e1) as [c0 v0]. destruct (split_const wrap e2) as [c1 v1].
    destruct (is_add o) eqn:A.
    + destruct R' as [R1 R2].
      destruct (IHe1 md W1 R1) as (N1 & M1 & C1 & V1). destruct (IHe2 md W2 R2) as (N2 & M2 & C2 & V2).
      rewrite L1 in C1, V1. rewrite L2 in C2, V2.
      pose proof (omag_nonneg _ _ _ C1). pose proof (omag_nonneg _ _ _ C2).
      pose proof (omag_nonneg _ _ _ V1). pose proof (omag_nonneg _ _ _ V2).
      cbn [AddrSpec.mag AddrProofs4.num] in *. cbv zeta in *. rewrite A in *.
      destruct (add_parts_ok md w c0 c1 Hw C1 C2) as (X1 & X2 & X3).
      { eapply fits_le; [|exact F]. lia. }
      destruct (add_parts_ok md w v0 v1 Hw V1 V2) as (Y1 & Y2 & Y3).
      { eapply fits_le; [|exact F]. lia. }
      rewrite X1, X2, Y1, Y2. cbn [width]. (split; [lia|]); (split; [lia|]); (split; auto).
    + destruct o; try discriminate; try exact KV.
      * (* Mul *)
        destruct R' as [R1 R2].
        destruct (IHe1 md W1 R1) as (N1 & M1 & C1 & V1). destruct (IHe2 md W2 R2) as (N2 & M2 & C2 & V2).
        rewrite L1 in C1, V1. rewrite L2 in C2, V2.
        pose proof (omag_nonneg _ _ _ C1). pose proof (omag_nonneg _ _ _ C2).
        pose proof (omag_nonneg _ _ _ V1). pose proof (omag_nonneg _ _ _ V2).
        cbn [AddrSpec.mag AddrProofs4.num is_add] in *. cbv zeta in *.
        assert (Mx : (omag md c0 + omag md v0) * (omag md c1 + omag md v1) <= mag md e1 * mag md e2)
          by (apply Z.mul_le_mono_nonneg; lia).
        assert (Mx' : omag md c0 * omag md c1 + (omag md v0 * omag md c1 + omag md c0 * omag md v1 + omag md v0 * omag md v1)
                      <= mag md e1 * mag md e2) by lia.
        pose proof (Z.mul_nonneg_nonneg (omag md c0) (omag md c1) ltac:(lia) ltac:(lia)).
        pose proof (Z.mul_nonneg_nonneg (omag md c0) (omag md v1) ltac:(lia) ltac:(lia)).
        pose proof (Z.mul_nonneg_nonneg (omag md v0) (omag md c1) ltac:(lia) ltac:(lia)).
        pose proof (Z.mul_nonneg_nonneg (omag md v0) (omag md v1) ltac:(lia) ltac:(lia)).
        destruct (mul_parts_ok md w c0 c1 Hw C1 C2) as (X1 & X2 & X3).
        { eapply fits_le; [|exact F]. lia. }
        destruct (mul_parts_ok md w v0 c1 Hw V1 C2) as (Y1 & Y2 & Y3).
        { eapply fits_le; [|exact F]. lia. }
        destruct (mul_parts_ok md w c0 v1 Hw C1 V2) as (U1 & U2 & U3).
        { eapply fits_le; [|exact F]. lia. }
        destruct (mul_parts_ok md w v0 v1 Hw V1 V2) as (T1 & T2 & T3).
        { eapply fits_le; [|exact F]. lia. }
        destruct (plus_parts_ok md w (mul_parts w v0 c1) (mul_parts w c0 v1) Hw Y3 U3) as (P1 & P2 & P3).
        { eapply fits_le; [|exact F]. lia. }
        destruct (plus_parts_ok md w (plus_parts w (mul_parts w v0 c1) (mul_parts w c0 v1))
                    (mul_parts w v0 v1) Hw P3 T3) as (O1 & O2 & O3).
        { eapply fits_le; [|exact F]. lia. }
        cbn [width]. rewrite X1, X2, O1, O2, P1, P2, Y1, Y2, U1, U2, T1, T2.
        split; [rewrite <- N1, <- N2; ring|]. split; [lia|]. split; assumption.
      * (* Shl *)
        destruct R' as [R1 R2].
        destruct v1 as [v1|]; [exact KV|]. destruct c0 as [c0|]; [|exact KV].
        destruct c1 as [c1|]; [|exact KV]. destruct v0 as [v0|]; [|exact KC].
        destruct (IHe1 md W1 R1) as (N1 & M1 & C1 & V1). destruct (IHe2 Mod W2 R2) as (N2 & M2 & C2 & V2).
        rewrite L1 in C1, V1. rewrite L2 in C2.
        pose proof (omag_nonneg _ _ _ C1). pose proof (omag_nonneg _ _ _ V1).
        cbn [onum omag ook] in *.
        destruct C1 as (Wc0 & Lc0 & Rc0). destruct V1 as (Wv0 & Lv0 & Rv0).
        destruct C2 as (Wc1 & Lc1 & Rc1).
        assert (S1 : eval r c1 lane = eval r e2 lane).
        { destruct (eval_num c1 true Mod Wc1 Rc1) as [E1 _].
          destruct (eval_num e2 true Mod W2 R2) as [E2 _].
          rewrite E1, E2, Lc1, L2. f_equal. lia. }
        cbn [AddrSpec.mag AddrProofs4.num AddrSpec.room well width is_add] in *. cbv zeta in *.
        rewrite S1. assert (Pp : 0 <= 2 ^ eval r e2 lane) by (apply Z.pow_nonneg; lia).
        set (p := 2 ^ eval r e2 lane) in *.
        assert (Mc : mag md c0 * p + mag md v0 * p <= mag md e1 * p).
        { rewrite <- Z.mul_add_distr_r. apply Z.mul_le_mono_nonneg_r; lia. }
        assert (0 <= mag md c0 * p) by (apply Z.mul_nonneg_nonneg; lia).
        assert (0 <= mag md v0 * p) by (apply Z.mul_nonneg_nonneg; lia).
        split; [rewrite <- N1; ring|]. split; [lia|].
        assert (fits md w (mag md c0 * p)) by (eapply fits_le; [|exact F]; lia).
        assert (fits md w (mag md v0 * p)) by (eapply fits_le; [|exact F]; lia).
        repeat split; try assumption; try discriminate.
  - (* Cast *)
    pose proof (room_fits md _ R) as F. cbn [width] in F.
    assert (W' := W). cbn [well] in W'. destruct W' as (Hw & W1 & Wc).
    assert (R' := R). cbn [AddrSpec.room] in R'. destruct R' as (_ & R').
    destruct c.
    1-3: cbn [split_const]; cbn [AddrSpec.mag] in F; cbv zeta in F.
    + destruct (split_const wrap e) as [co vo].
      destruct (IHe md W1 R') as (N1 & M1 & C1 & V1).
      pose proof (omag_nonneg _ _ _ C1). pose proof (omag_nonneg _ _ _ V1).
      destruct (cast_part Trunc w md md co (width e)) as (X1 & X2 & X3); auto.
      { eapply fits_le; [|exact F]. lia. }
      destruct (cast_part Trunc w md md vo (width e)) as (Y1 & Y2 & Y3); auto.
      { eapply fits_le; [|exact F]. lia. }
      rewrite X1, X2, Y1, Y2. cbn [AddrProofs4.num AddrSpec.mag width]. auto.
    + destruct (split_const wrap e) as [co vo]. destruct R' as [M R'].
      destruct (IHe Sgn W1 R') as (N1 & M1 & C1 & V1).
      pose proof (omag_nonneg _ _ _ C1). pose proof (omag_nonneg _ _ _ V1).
      destruct (cast_part SExt w md Sgn co (width e)) as (X1 & X2 & X3); auto 6.
      { eapply fits_le; [|exact F]. lia. }
      destruct (cast_part SExt w md Sgn vo (width e)) as (Y1 & Y2 & Y3); auto 6.
      { eapply fits_le; [|exact F]. lia. }
      rewrite X1, X2, Y1, Y2. cbn [AddrProofs4.num AddrSpec.mag width]. auto.
    + destruct (split_const wrap e) as [co vo].
      destruct (IHe Uns W1 R') as (N1 & M1 & C1 & V1).
      pose proof (omag_nonneg _ _ _ C1). pose proof (omag_nonneg _ _ _ V1).
      destruct (cast_part ZExt w md Uns co (width e)) as (X1 & X2 & X3); auto 6.
      { eapply fits_le; [|exact F]. lia. }
      destruct (cast_part ZExt w md Uns vo (width e)) as (Y1 & Y2 & Y3); auto 6.
      { eapply fits_le; [|exact F]. lia. }
      rewrite X1, X2, Y1, Y2. cbn [AddrProofs4.num AddrSpec.mag width]. auto.
    + assert (S : split_const wrap e = (None, Some e) \/ split_const wrap e = (Some e, None)).
      { destruct e; cbn [whole] in R'; try contradiction; cbn [split_const]; auto.
        destruct R' as (A & B & C). rewrite A.
        destruct (split_const wrap e1), (split_const wrap e2). destruct o; auto; congruence. }
      cbn [split_const].
      destruct S as [-> | ->]; cbn [option_map onum omag ook]; (split; [lia|]); (split; [lia|]); (split; auto).
Qed.

(** ** Scales *)

Definition zeroish (e : exp) : bool := match e with Zero _ => true | _ => false end.

Lemma extract_add o nsw w a b : is_add o = true ->
  extract_scale n (Bin o nsw w a b) =
  if zeroish a then extract_scale n b
  else if zeroish b then extract_scale n a
  else let '(s0, a') := extract_scale n a in
       let '(s1, b') := extract_scale n b in
       if s0 =? s1 then (s0, Bin Add false w a' b') else (1, Bin o nsw w a b).
Proof.
  intro A. cbn [extract_scale]. rewrite A.
  destruct a; try reflexivity; destruct b; reflexivity.
Qed.

(** The result of taking a factor [s] out of [e]. *)
Definition scaled (m : mode) (e : exp) (s : Z) (v : exp) : Prop :=
  In s [1; 2; 4; 8] /\ well n T true v /\ width v = width e /\ room m v /\
  (m <> Mod -> mag m v <= mag m e /\ num m e = s * num m v) /\
  wrapu (width e) (num m e) = wrapu (width e) (s * num m v).

Lemma scaled_1 m e : well n T true e -> room m e -> scaled m e 1 e.
Proof.
  intros W R. unfold scaled. rewrite Z.mul_1_l.
  split; [left; reflexivity|]. split; [exact W|]. split; [reflexivity|]. split; [exact R|].
  split; [intros _; split; lia|reflexivity].
Qed.

Hypothesis Hlane : (lane < n)%nat.

Lemma data_splat_spec m a s :
  well n T true a -> room m a -> data_splat a = Some s ->
  exists w l, a = Data w l /\ 8 <= w /\ wraps w (eval r a lane) = s /\ (m = Uns -> 0 <= s) /\
    (m <> Mod -> num m a = s) /\ wrapu w (num m a) = wrapu w s.
Proof.
  intros W R S. assert (Rg := eval_range n T true r a lane W).
  destruct a; cbn [data_splat] in S; try discriminate.
  exists w, l. split; [reflexivity|].
  destruct (splat_of Z.eqb l) as [x|] eqn:E; cbn [option_map] in S; [|discriminate].
  injection S as <-. cbn [well] in W. destruct W as (_ & Hw & L & F).
  assert (X : nth lane l 0 = x) by (apply (splat_spec _ zeqb_eq l x E), nth_In; lia).
  assert (Ix : in_u w x). { rewrite <- X. rewrite Forall_forall in F. apply F, nth_In. lia. }
  assert (V : eval r (Data w l) lane = x) by (cbn [eval]; rewrite X; apply wrapu_id, Ix).
  cbn [AddrSpec.room] in R. destruct R as (_ & H8 & Sm & U). rewrite V in *. clear V.
  assert (S32 : wraps 32 (wraps w x) = wraps w x).
  { apply wraps_id; [lia|]. unfold small in Sm. unfold in_s. change (32 - 1) with 31. lia. }
  rewrite S32. split; [exact H8|]. split; [reflexivity|].
  assert (NM : num m (Data w l) = rd m w x).
  { cbn [AddrProofs4.num width eval]. rewrite X. rewrite (wrapu_id w x Ix). reflexivity. }
  assert (Un : m = Uns -> wraps w x = x).
  { intro M. specialize (U M). rewrite wraps_of_u by (lia || exact Ix).
    destruct (Z.ltb_spec x (2 ^ (w - 1))); lia. }
  split; [intro M; rewrite (Un M); apply Ix|].
  rewrite NM. split.
  - intro M. destruct m; cbn [rd]; [congruence|reflexivity|]. symmetry. apply Un. reflexivity.
  - rewrite wrapu_rd by assumption. rewrite wrapu_wraps by lia. symmetry. apply wrapu_id, Ix.
Qed.

Lemma quot_abs_le s k : 0 < k -> Z.abs (Z.quot s k) <= Z.abs s.
Proof.
  intro H. rewrite <- (Z.quot_abs s k) by lia. rewrite (Z.abs_eq k) by lia.
  rewrite Z.quot_div_nonneg by lia. apply Z.div_le_upper_bound; nia.
Qed.

Lemma extract_248_ok m e a b s :
  well n T true a -> well n T true b -> width a = width e -> width b = width e -> 0 < width e ->
  well n T true e -> room m e -> room m a -> room m b -> data_splat a = Some s ->
  num m e = num m a * num m b -> mag m e = mag m a * mag m b ->
  scaled m e (fst (extract_248 n e a s b)) (snd (extract_248 n e a s b)).
Proof.
  intros Wa Wb La Lb Hw We Re Ra Rb S Nm Mg.
  destruct (data_splat_spec m a s Wa Ra S) as (w & l & -> & H8 & Vs & Us & Ns & Cs).
  cbn [width] in La. subst w. set (w := width e) in *.
  assert (Is : in_s w s) by (rewrite <- Vs; apply wraps_range; lia).
  assert (Mb := mag_nonneg true m b Wb).
  assert (Ma : m <> Mod -> mag m (Data w l) = Z.abs s).
  { intro M. cbn [AddrSpec.mag width]. cbv zeta. f_equal. apply (Ns M). }
  assert (P7 : 128 <= 2 ^ (w - 1)) by (change 128 with (2 ^ 7); apply Z.pow_le_mono_r; lia).
  unfold extract_248. cbn [width].
  destruct ((s =? 2) || (s =? 4) || (s =? 8)) eqn:E.
  { cbn [fst snd]. rewrite !orb_true_iff, !Z.eqb_eq in E.
    unfold scaled. fold w. split; [cbn; lia|]. split; [exact Wb|]. split; [exact Lb|]. split; [exact Rb|].
    split.
    - intro M. rewrite Mg, Nm, (Ma M), (Ns M). split; nia.
    - rewrite Nm, <- wrapu_mul_l, Cs, wrapu_mul_l. reflexivity. }
  assert (K : forall k, In k [2; 4; 8] -> Z.rem s k =? 0 = true ->
    scaled m e k (Bin Mul false w (Bin SDiv false w (Data w l) (Data w (repeat k n))) b)).
  { intros k Ik Rk. apply Z.eqb_eq in Rk.
    assert (Kp : 2 <= k <= 8) by (cbn in Ik; lia).
    pose proof (Z.quot_rem s k ltac:(lia)) as Qr. rewrite Rk, Z.add_0_r in Qr.
    pose proof (quot_abs_le s k ltac:(lia)) as Qa.
    set (q := Z.quot s k) in *.
    set (d := Bin SDiv false w (Data w l) (Data w (repeat k n))).
    assert (Ik' : in_u w k). { unfold in_u. pose proof (pow2_split w Hw). lia. }
    assert (Vd : eval r d lane = wrapu w q).
    { unfold d. cbn [eval]. cbn [eval] in Vs. unfold bop_val. rewrite Vs.
      assert (X : nth lane (repeat k n) 0 = k).
      { rewrite (nth_indep _ 0 k) by (rewrite repeat_length; lia). apply nth_repeat. }
      rewrite X, wraps_wrapu by lia. rewrite (wraps_id w k); [reflexivity|lia|].
      unfold in_s. lia. }
    assert (Iq : in_s w q). { unfold in_s in *. lia. }
    assert (Nd : num m d = rd m w (wrapu w q)).
    { unfold d. cbn [AddrProofs4.num width is_add]. cbv zeta. fold d. rewrite Vd. reflexivity. }
    assert (Md : mag m d = Z.abs (rd m w (wrapu w q))).
    { unfold d. cbn [AddrSpec.mag width is_add]. cbv zeta. fold d. rewrite Vd. reflexivity. }
    assert (Rq : m <> Mod -> rd m w (wrapu w q) = q).
    { intro M. destruct m; cbn [rd]; [congruence| |].
      - rewrite wraps_wrapu by lia. apply wraps_id; [lia|exact Iq].
      - specialize (Us eq_refl). apply wrapu_id. unfold in_u. unfold in_s in Iq.
        pose proof (pow2_split w Hw). assert (0 <= q) by nia. lia. }
    assert (Wd : well n T true d).
    { unfold d. cbn [well width]. cbn [well] in Wa.
      split; [exact Hw|]. split; [exact Wa|]. split; [|split; reflexivity].
      split; [reflexivity|]. split; [exact Hw|]. split; [apply repeat_length|].
      apply Forall_forall. intros y Y. apply repeat_spec in Y. subst y. exact Ik'. }
    assert (Mle : m <> Mod -> mag m d <= mag m (Data w l)).
    { intro M. rewrite Md, (Rq M), (Ma M). exact Qa. }
    assert (Dec : m = Mod \/ m <> Mod) by (destruct m; [left; reflexivity|right; discriminate..]).
    assert (Rd : room m d).
    { unfold d at 1. cbn [AddrSpec.room is_add width]. fold d.
      split; [|split; [discriminate|exact Logic.I]].
      destruct Dec as [->|M]; [exact Logic.I|].
      eapply fits_le; [apply (Mle M)|]. apply (room_fits m _ Ra). }
    assert (Ed : eval r d lane = wrapu w (num m d)).
    { apply (eval_num d true m Wd Rd). }
    unfold scaled. fold w.
    split; [cbn in *; tauto|].
    split; [cbn [well]; split; [exact Hw|split; [exact Wd|split; [exact Wb|split; [reflexivity|exact Lb]]]]|].
    split; [reflexivity|].
    assert (F : m <> Mod -> mag m d * mag m b <= mag m (Data w l) * mag m b).
    { intro M. apply Z.mul_le_mono_nonneg_r; [exact Mb|apply (Mle M)]. }
    split; [|split].
    - cbn [AddrSpec.room is_add width AddrSpec.mag]. cbv zeta.
      split; [|split; [discriminate|split; assumption]].
      destruct Dec as [->|M]; [exact Logic.I|].
      eapply fits_le; [apply (F M)|]. rewrite <- Mg. apply (room_fits m _ Re).
    - intro M. cbn [AddrSpec.mag AddrProofs4.num is_add]. cbv zeta. rewrite Mg, Nm. split; [apply (F M)|].
      rewrite Nd, (Rq M), (Ns M). rewrite Qr. ring.
    - cbn [AddrProofs4.num is_add]. cbv zeta. rewrite Nm.
      rewrite <- wrapu_mul_l, Cs, wrapu_mul_l.
      replace (k * (num m d * num m b)) with (num m d * (k * num m b)) by ring.
      rewrite <- (wrapu_mul_l w (num m d)), <- Ed, Vd, wrapu_mul_l.
      f_equal. rewrite Qr. ring. }
  destruct (Z.rem s 8 =? 0) eqn:E8; [apply K; [cbn; tauto|exact E8]|].
  destruct (Z.rem s 4 =? 0) eqn:E4; [apply K; [cbn; tauto|exact E4]|].
  destruct (Z.rem s 2 =? 0) eqn:E2; [apply K; [cbn; tauto|exact E2]|].
  cbn [fst snd]. apply scaled_1; assumption.
Qed.

Lemma extract_ok e : forall m, well n T true e -> room m e ->
  scaled m e (fst (extract_scale n e)) (snd (extract_scale n e)).
Proof.
  induction e; intros md W R; try (apply scaled_1; assumption).
  - (* Bin *)
    assert (W' := W). cbn [well] in W'. destruct W' as (Hw & W1 & W2 & L1 & L2).
    assert (R' := R). cbn [AddrSpec.room] in R'. destruct R' as (F & _ & R'). cbn [width] in F.
    destruct (is_add o) eqn:A.
    + destruct R' as [R1 R2]. specialize (IHe1 md W1 R1). specialize (IHe2 md W2 R2).
      rewrite extract_add by exact A.
      cbn [AddrSpec.mag] in F. cbv zeta in F. rewrite A in F.
      assert (Nz : forall x, well n T true x -> zeroish x = true -> num md x = 0 /\ mag md x = 0).
      { intros x Wx Zx. destruct x; try discriminate. cbn [well] in Wx. destruct Wx as [_ Wx].
        cbn. rewrite rd_0 by exact Wx. split; reflexivity. }
      destruct (zeroish e1) eqn:Z1.
      { destruct (Nz e1 W1 Z1) as [N0 M0].
        unfold scaled in *. cbn [width AddrSpec.mag AddrProofs4.num]. cbv zeta. rewrite A, N0, M0, !Z.add_0_l.
        rewrite L2 in IHe2. destruct IHe2 as (I1 & I2 & I3 & I4 & I5 & I6).
        repeat (split; [assumption|]). assumption. }
      destruct (zeroish e2) eqn:Z2.
      { destruct (Nz e2 W2 Z2) as [N0 M0].
        unfold scaled in *. cbn [width AddrSpec.mag AddrProofs4.num]. cbv zeta. rewrite A, N0, M0, !Z.add_0_r.
        rewrite L1 in IHe1. destruct IHe1 as (I1 & I2 & I3 & I4 & I5 & I6).
        repeat (split; [assumption|]). assumption. }
      destruct (extract_scale n e1) as [s0 a']. destruct (extract_scale n e2) as [s1 b'].
      cbn [fst snd] in IHe1, IHe2.
      destruct (s0 =? s1) eqn:E; [|cbn [fst snd]; apply scaled_1; assumption].
      apply Z.eqb_eq in E. subst s1. cbn [fst snd].
      destruct IHe1 as (I1 & I2 & I3 & I4 & I5 & I6). destruct IHe2 as (J1 & J2 & J3 & J4 & J5 & J6).
      rewrite L1 in *. rewrite L2 in *.
      destruct (add_node md w a' b') as (X1 & X2 & X3); auto.
      { destruct md; [exact Logic.I| |]; (eapply fits_le; [|exact F]);
          destruct (I5 ltac:(discriminate)); destruct (J5 ltac:(discriminate)); lia. }
      unfold scaled. cbn [width] in *.
      split; [assumption|]. split; [exact X1|]. split; [reflexivity|]. split; [exact X3|].
      cbn [AddrSpec.mag AddrProofs4.num is_add]. cbv zeta. rewrite A. split.
      * intro M. specialize (I5 M). specialize (J5 M). destruct I5 as [A1 A2]. destruct J5 as [B1 B2].
        split; [lia|]. rewrite A2, B2. ring.
      * rewrite <- wrapu_add, I6, J6, wrapu_add. f_equal. ring.
    + cbn [extract_scale]. rewrite A. destruct o; try (cbn [fst snd]; apply scaled_1; assumption).
      destruct R' as [R1 R2].
      destruct (data_splat e1) as [s|] eqn:S1.
      { eapply (extract_248_ok md); try eassumption; try reflexivity. }
      destruct (data_splat e2) as [s|] eqn:S2.
      { eapply (extract_248_ok md); try eassumption; try reflexivity.
        - cbn [AddrProofs4.num is_add]. cbv zeta. ring.
        - cbn [AddrSpec.mag is_add]. cbv zeta. ring. }
      cbn [fst snd]. apply scaled_1; assumption.
  - (* Cast *)
    assert (W' := W). cbn [well] in W'. destruct W' as (Hw & W1 & Wc).
    assert (R' := R). cbn [AddrSpec.room] in R'. destruct R' as (F & R'). cbn [width] in F.
    cbn [extract_scale].
    assert (Dec : md = Mod \/ md <> Mod) by (destruct md; [left; reflexivity|right; discriminate..]).
    destruct c.
    + specialize (IHe md W1 R'). destruct (extract_scale n e) as [s a']. cbn [fst snd] in *.
      destruct IHe as (I1 & I2 & I3 & I4 & I5 & I6).
      unfold scaled. cbn [width well AddrSpec.mag AddrProofs4.num AddrSpec.room] in *. cbv zeta in *.
      rewrite I3. split; [exact I1|]. split; [auto|]. split; [reflexivity|]. split; [split; [|exact I4]|split].
      * destruct Dec as [->|M]; [exact Logic.I|]. eapply fits_le; [apply (I5 M)|exact F].
      * exact I5.
      * rewrite <- (wrapu_narrow w (width e) (num md e)), I6, wrapu_narrow by lia. reflexivity.
    + destruct R' as [M' R']. specialize (IHe Sgn W1 R'). destruct (extract_scale n e) as [s a']. cbn [fst snd] in *.
      destruct IHe as (I1 & I2 & I3 & I4 & I5 & I6). destruct (I5 ltac:(discriminate)) as [I7 I8].
      unfold scaled. cbn [width well AddrSpec.mag AddrProofs4.num AddrSpec.room] in *. cbv zeta in *.
      rewrite I3. split; [exact I1|]. split; [auto|]. split; [reflexivity|]. split; [split; [|auto]|split].
      * destruct Dec as [->|M]; [exact Logic.I|]. eapply fits_le; [exact I7|exact F].
      * auto.
      * rewrite I8. reflexivity.
    + specialize (IHe Uns W1 R'). destruct (extract_scale n e) as [s a']. cbn [fst snd] in *.
      destruct IHe as (I1 & I2 & I3 & I4 & I5 & I6). destruct (I5 ltac:(discriminate)) as [I7 I8].
      unfold scaled. cbn [width well AddrSpec.mag AddrProofs4.num AddrSpec.room] in *. cbv zeta in *.
      rewrite I3. split; [exact I1|]. split; [auto|]. split; [reflexivity|]. split; [split; [|auto]|split].
      * destruct Dec as [->|M]; [exact Logic.I|]. eapply fits_le; [exact I7|exact F].
      * auto.
      * rewrite I8. reflexivity.
    + assert (S : extract_scale n e = (1, e)).
      { destruct e; cbn [whole] in R'; try contradiction; try reflexivity.
        destruct R' as (A & B & C). cbn [extract_scale]. rewrite A. destruct o; auto; congruence. }
      rewrite S. cbn [fst snd]. apply scaled_1; assumption.
Qed.

End Num.
