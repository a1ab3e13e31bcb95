(** Proofs about base pointers and whole gather/scatter calls (C37, C59). *)

From Coq Require Import ZArith List Bool Lia.
From Verif Require Import Bits AddrModel AddrSpec AddrProofs AddrProofs2 AddrProofs3 AddrProofs4.
Import ListNotations.
Open Scope Z_scope.

Section Base.

Variables (n : nat) (T : nat -> bool * Z).

Lemma tame_celt w c : every (tame n) false (celt_exp w c).
Proof. destruct c; cbn [celt_exp every tame]; intuition discriminate. Qed.

Lemma flatten_ok und e x :
  well n T true e -> every (tame n) false e -> flatten n und false e = Some x ->
  well n T false x /\ width x = width e /\ forall r j, (j < n)%nat -> eval r e j = eval r x j.
Proof.
  intros W G E.
  assert (C : match e with
              | Insert _ _ _ => (forall j, (j < n)%nat -> covers e j) /\ flat_chain e
              | _ => True
              end).
  { destruct e; try exact Logic.I. cbn [every] in G. destruct G as [G _]. apply (G eq_refl). }
  destruct (flatten_sound n T (tame n) tame_celt und e x W G C E) as (A & B & _ & D & _). auto.
Qed.

Lemma checked_some o e : checked o = Some e -> o = Some e /\ actual_pointer e = true.
Proof.
  destruct o as [x|]; [|discriminate]. cbn [checked]. destruct (actual_pointer x) eqn:A; [|discriminate].
  intro H. injection H as ->. auto.
Qed.

Lemma base_pointer_ok e : forall b,
  well n T true e -> every (tame n) false e -> base_pointer n false e = Some b ->
  well n T false b /\ width b = width e /\ forall r j, (j < n)%nat -> eval r e j = eval r b j.
Proof.
  induction e; intros bp W G E; cbn [base_pointer] in E; try discriminate.
  - apply checked_some in E. destruct E as [E A].
    destruct (splat_of celt_eqb l) as [x|] eqn:S; cbn [option_map] in E; [|discriminate].
    injection E as <-. cbn [well] in W. destruct W as (_ & Hw & L).
    split.
    { destruct (celt_exp_well n T w x Hw) as [->|H]; [discriminate|exact H]. }
    split; [apply celt_exp_width|].
    intros r j Hj. rewrite celt_exp_eval. cbn [eval].
    rewrite (splat_spec _ celt_eqb_eq l x S (nth j l EUndef)) by (apply nth_In; lia). reflexivity.
  - destruct (base_pointer n false e) as [x|] eqn:B; cbn [option_map] in E; [|discriminate].
    injection E as <-. cbn [every] in G. destruct G as [_ G]. cbn [well] in *.
    destruct W as (Hw & W & Wc). destruct (IHe x W G eq_refl) as (A1 & A2 & A3).
    split; [rewrite A2; auto|]. split; [reflexivity|].
    intros r j Hj. cbn [eval]. rewrite (A3 r j Hj), A2. reflexivity.
  - apply checked_some in E. destruct E as [E A]. eapply flatten_ok; eassumption.
  - apply checked_some in E. destruct E as [E A]. eapply flatten_ok; eassumption.
Qed.

Lemma zero_mask_nth m j : zero_mask m = true -> nth j m 0%nat = 0%nat.
Proof.
  unfold zero_mask. rewrite forallb_forall. intro H.
  destruct (Nat.lt_ge_cases j (length m)) as [L|G].
  - assert (I := nth_In m 0%nat L). apply H in I. apply Nat.eqb_eq in I. auto.
  - apply nth_overflow, G.
Qed.

Lemma celts_split_spec l : forall ps, celts_split l = Some ps ->
  length ps = length l /\
  forall j, (j < length l)%nat -> celt_split (nth j l EUndef) = Some (nth j ps (0%nat, 0)).
Proof.
  induction l as [|c l IH]; intros ps E; cbn [celts_split] in E.
  - injection E as <-. split; [reflexivity|]. intros j H. cbn in H. lia.
  - destruct (celt_split c) as [p|] eqn:C; [|discriminate].
    destruct (celts_split l) as [qs|]; [|discriminate]. injection E as <-.
    destruct (IH qs eq_refl) as [L H]. split; [cbn; lia|].
    intros [|j] Hj; [exact C|]. cbn [nth]. apply H. cbn in Hj. lia.
Qed.

Lemma mk_const_ok w l : 8 <= w -> length l = n ->
  well n T true (mk_const w l) /\ width (mk_const w l) = w /\
  forall r lane, (lane < n)%nat -> small w (nth lane l 0) ->
    room r lane Mod (mk_const w l) /\ eval r (mk_const w l) lane = wrapu w (nth lane l 0).
Proof.
  intros Hw L. unfold mk_const. cbv zeta.
  assert (Z0 : wrapu w 0 = 0) by (unfold wrapu; apply Zmod_0_l).
  assert (Nth : forall j, nth j (map (wrapu w) l) 0 = wrapu w (nth j l 0)).
  { intro j. rewrite <- Z0 at 1. apply map_nth. }
  destruct (forallb (Z.eqb 0) (map (wrapu w) l)) eqn:E.
  - split; [cbn [well]; split; [reflexivity|lia]|]. split; [reflexivity|].
    intros r lane Hl _. split; [split; exact Logic.I|].
    cbn [eval]. rewrite forallb_forall in E.
    assert (I : In (nth lane (map (wrapu w) l) 0) (map (wrapu w) l)) by (apply nth_In; rewrite map_length; lia).
    apply E, Z.eqb_eq in I. rewrite Nth in I. exact I.
  - split; [|split; [reflexivity|]].
    + cbn [well]. split; [reflexivity|]. split; [lia|]. split; [rewrite map_length; exact L|].
      apply Forall_forall. intros x X. apply in_map_iff in X. destruct X as (y & <- & _).
      apply wrapu_range. lia.
    + intros r lane Hl Sm. cbn [room eval]. rewrite Nth, wrapu_wrapu. split; [|reflexivity].
      split; [exact Logic.I|]. split; [exact Hw|]. split; [|discriminate].
      unfold small in *. rewrite wraps_wrapu by lia. exact Sm.
Qed.

Variable aw : Z.
Hypothesis Haw : 8 <= aw.

Definition based (e b off : exp) : Prop :=
  well n T false b /\ width b = aw /\ well n T true off /\ width off = aw /\
  forall r lane, (lane < n)%nat -> splats_add r e -> room r lane Mod e ->
    room r lane Mod off /\ eval r e lane = wrapu aw (eval r b lane + eval r off lane).

Lemma based_zero e b :
  well n T true e -> width e = aw -> well n T false b -> width b = width e ->
  (forall r j, (j < n)%nat -> eval r e j = eval r b j) -> based e b (Zero aw).
Proof.
  intros W L Wb Lb V. unfold based.
  split; [exact Wb|]. split; [lia|]. split; [cbn [well]; split; [reflexivity|lia]|]. split; [reflexivity|].
  intros r lane Hl _ _. split; [split; exact Logic.I|].
  cbn [eval]. rewrite Z.add_0_r, (V r lane Hl). symmetry. apply wrapu_id.
  replace aw with (width b) by lia. eapply eval_range, Wb.
Qed.

Lemma shuf_zero_well x : (0 < n)%nat -> well n T true x -> width x = aw ->
  well n T true (Bin Add false aw (Zero aw) (Shuf x (repeat 0%nat n))).
Proof.
  intros Hn W L. cbn [well width]. split; [lia|]. split; [split; [reflexivity|lia]|].
  split; [|split; [reflexivity|exact L]].
  split; [reflexivity|]. split; [exact W|]. split; [apply repeat_length|].
  apply Forall_forall. intros y Y. apply repeat_spec in Y. lia.
Qed.

Lemma shuf_zero_eval r lane x : (lane < n)%nat ->
  eval r (Bin Add false aw (Zero aw) (Shuf x (repeat 0%nat n))) lane = wrapu aw (eval r x 0%nat).
Proof.
  intro Hl. cbn [eval]. unfold bop_val. rewrite Z.add_0_l. do 2 f_equal.
  rewrite nth_repeat. reflexivity.
Qed.

Lemma repeat_nth0 j : nth j (repeat 0%nat n) 0%nat = 0%nat.
Proof. apply nth_repeat. Qed.

Theorem base_offsets_ok e : forall b off, (0 < n)%nat ->
  well n T true e -> width e = aw -> every (tame n) false e ->
  base_offsets n aw e = Some (b, off) -> based e b off.
Proof.
  induction e; intros bp off Hn W L G E.
  all: try discriminate.
  - (* CVec *)
    cbn [base_offsets] in E.
    destruct (base_pointer n false (CVec w l)) as [b0|] eqn:B.
    + injection E as <- <-. destruct (base_pointer_ok _ b0 W G B) as (A1 & A2 & A3).
      apply based_zero; assumption.
    + cbn [well] in W. destruct W as (_ & Hw & Ll). cbn [width] in L. subst w.
      destruct (celts_split l) as [[|[g d] ps]|] eqn:S; try discriminate.
      destruct (forallb (fun p => Nat.eqb (fst p) g) ps) eqn:F; [|discriminate].
      injection E as <- <-. destruct (celts_split_spec l _ S) as [Lp Sp].
      rewrite forallb_forall in F.
      destruct (mk_const_ok aw (d :: map snd ps) Haw) as (M1 & M2 & M3).
      { cbn [length] in *. rewrite map_length. lia. }
      unfold based. split; [cbn [well]; split; [reflexivity|lia]|]. split; [reflexivity|].
      split; [exact M1|]. split; [exact M2|].
      intros r lane Hl _ R. cbn [room] in R. destruct R as [_ R].
      specialize (Sp lane ltac:(lia)).
      assert (Sn : nth lane (d :: map snd ps) 0 = snd (nth lane ((g, d) :: ps) (0%nat, 0))).
      { change (d :: map snd ps) with (map snd ((g, d) :: ps)). rewrite <- (map_nth snd). reflexivity. }
      assert (Fg : fst (nth lane ((g, d) :: ps) (0%nat, 0)) = g).
      { assert (I : In (nth lane ((g, d) :: ps) (0%nat, 0)) ((g, d) :: ps)) by (apply nth_In; lia).
        destruct I as [I|I]; [rewrite <- I; reflexivity|]. apply F, Nat.eqb_eq in I. exact I. }
      destruct (nth lane ((g, d) :: ps) (0%nat, 0)) as [g' d']. cbn [fst snd] in Sn, Fg. subst g'.
      assert (Sm : small aw d' /\ eval r (CVec aw l) lane = wrapu aw (wrapu aw (e_leaf r g 0%nat) + wrapu aw d')).
      { cbn [eval]. unfold celt_val.
        destruct (nth lane l EUndef); cbn [celt_split] in Sp; try discriminate; injection Sp as -> <-.
        - split.
          + unfold small. rewrite wraps_id; [lia|lia|]. unfold in_s.
            pose proof (pow2_pos (aw - 1) ltac:(lia)). lia.
          + replace (wrapu aw 0) with 0 by (unfold wrapu; rewrite Zmod_0_l; reflexivity).
            rewrite Z.add_0_r. reflexivity.
        - split; [exact R|reflexivity].
        - split; [exact R|reflexivity]. }
      destruct Sm as [Sm Ev]. rewrite <- Sn in Sm. destruct (M3 r lane Hl Sm) as [M4 M5].
      split; [exact M4|]. rewrite Ev, M5, Sn. reflexivity.
  - (* Bin *)
    cbn [base_offsets base_pointer] in E.
    destruct (is_add o) eqn:A; [|discriminate].
    assert (W' := W). cbn [well] in W'. destruct W' as (Hw & W1 & W2 & L1 & L2).
    cbn [width] in L. subst w. cbn [every] in G. destruct G as (_ & G1 & G2).
    assert (K : forall x y bx ox, well n T true x -> well n T true y -> width y = aw -> based x bx ox ->
      (forall r lane, (lane < n)%nat -> splats_add r (Bin o nsw aw e1 e2) -> room r lane Mod (Bin o nsw aw e1 e2) ->
         splats_add r x /\ room r lane Mod x /\ room r lane Mod y /\
         eval r (Bin o nsw aw e1 e2) lane = wrapu aw (eval r x lane + eval r y lane)) ->
      based (Bin o nsw aw e1 e2) bx (Bin Add false aw ox y)).
    { intros x y bx ox Wx Wy Ly (B1 & B2 & B3 & B4 & B5) Q. unfold based.
      split; [exact B1|]. split; [exact B2|].
      split; [cbn [well]; split; [lia|]; auto|]. split; [reflexivity|].
      intros r lane Hl Sp R. destruct (Q r lane Hl Sp R) as (Sx & Rx & Ry & Ev).
      destruct (B5 r lane Hl Sx Rx) as [Ro Ex].
      split.
      - cbn [room is_add]. split; [exact Logic.I|]. split; [discriminate|]. split; assumption.
      - rewrite Ev, Ex. cbn [eval]. unfold bop_val.
        rewrite wrapu_add_l, wrapu_add_r. f_equal. lia. }
    assert (Ev : forall r lane, (lane < n)%nat -> room r lane Mod (Bin o nsw aw e1 e2) ->
         room r lane Mod e1 /\ room r lane Mod e2 /\
         eval r (Bin o nsw aw e1 e2) lane = wrapu aw (eval r e1 lane + eval r e2 lane)).
    { intros r lane Hl R. cbn [room] in R. rewrite A in R. destruct R as (_ & Ro & R1 & R2).
      split; [exact R1|]. split; [exact R2|].
      cbn [eval]. apply add_val; [exact A|]. intros d -> ->. apply Ro. reflexivity. }
    destruct (base_offsets n aw e1) as [[b1 o1]|] eqn:B1.
    + injection E as <- <-. apply (K e1 e2 b1 o1); auto.
      intros r lane Hl [Sp _] R. split; [exact Sp|]. apply Ev; assumption.
    + destruct (base_offsets n aw e2) as [[b2 o2]|] eqn:B2; [|discriminate].
      injection E as <- <-. apply (K e2 e1 b2 o2); auto.
      intros r lane Hl [_ Sp] R. destruct (Ev r lane Hl R) as (R1 & R2 & V). rewrite Z.add_comm in V. auto.
  - (* Cast *)
    unfold base_offsets in E.
    destruct (base_pointer n false (Cast c w e)) as [b0|] eqn:B; [|discriminate].
    injection E as <- <-. destruct (base_pointer_ok _ b0 W G B) as (A1 & A2 & A3).
    apply based_zero; assumption.
  - (* Insert *)
    unfold base_offsets in E.
    destruct (base_pointer n false (Insert e1 e2 i)) as [b0|] eqn:B; [|discriminate].
    injection E as <- <-. destruct (base_pointer_ok _ b0 W G B) as (A1 & A2 & A3).
    apply based_zero; assumption.
  - (* Shuf *)
    cbn [base_offsets] in E.
    destruct (base_pointer n (zero_mask m) (Shuf e m)) as [b0|] eqn:B; [|discriminate].
    cbn [base_pointer] in B. apply checked_some in B. destruct B as [B A].
    destruct (zero_mask m) eqn:Zm.
    2:{ (* no result *) cbn [flatten] in B. rewrite Zm in B. discriminate. }
    destruct e.
    all: try (cbn [flatten] in B; rewrite Zm in B; discriminate).
    + (* Bin *)
      cbn [flatten] in B. rewrite Zm in B. cbn [andb] in B, E.
      destruct (is_add o) eqn:O; [|discriminate].
      assert (W' := W). cbn [well width] in W'. destruct W' as (_ & (Hw & W1 & W2 & L1 & L2) & _).
      cbn [width] in L. subst w.
      assert (Ev : forall r lane, (lane < n)%nat -> splats_add r (Shuf (Bin o nsw aw e1 e2) m) ->
        eval r (Shuf (Bin o nsw aw e1 e2) m) lane = wrapu aw (eval r e1 0%nat + eval r e2 0%nat)).
      { intros r lane Hl R. cbn [eval]. rewrite (zero_mask_nth m lane Zm). apply add_val; [exact O|].
        intros d -> ->. exact R. }
      assert (K : forall x y s ui, well n T true x -> well n T true y -> width x = aw -> width y = aw ->
        x = Insert (Undef ui) s 0 ->
        (forall r, eval r e1 0%nat + eval r e2 0%nat = eval r x 0%nat + eval r y 0%nat) ->
        based (Shuf (Bin o nsw aw e1 e2) m) s (Bin Add false aw (Zero aw) (Shuf y (repeat 0%nat n)))).
      { intros x y s ui Wx Wy Lx Ly -> V. cbn [well width] in Wx, Lx.
        destruct Wx as (_ & _ & _ & Ws & Ls). unfold based.
        split; [exact Ws|]. split; [lia|]. split; [apply shuf_zero_well; assumption|].
        split; [reflexivity|].
        intros r lane Hl Sp _. split.
        - cbn [room is_add]. split; [exact Logic.I|]. split; [discriminate|].
          split; split; exact Logic.I.
        - rewrite (Ev r lane Hl Sp), (shuf_zero_eval r lane y Hl), wrapu_add_r, V. do 2 f_equal.
          cbn [eval]. cbn [Nat.eqb]. eapply scalar_eval, Ws. }
      destruct (first_const e2) eqn:Fc.
      * destruct e1; try discriminate. destruct e1_1; try discriminate. destruct i; try discriminate.
        injection B as <-.
        destruct e2; try discriminate. injection E as <- <-.
        apply (K (Insert (Undef w) e1_2 0) (CVec w0 l) e1_2 w); auto.
      * destruct e2; try discriminate. destruct e2_1; try discriminate. destruct i; try discriminate.
        injection B as <-. destruct e1; try discriminate. injection E as <- <-.
        apply (K (Insert (Undef w) e2_2 0) (Bin o0 nsw0 w0 e1_1 e1_2) e2_2 w); auto.
        intro r. apply Z.add_comm.
    + (* Insert *)
      assert (B' : flatten n false false (Shuf (Insert e1 e2 i) m) = Some b0) by exact B.
      injection E as <- <-. destruct (flatten_ok false _ b0 W G B') as (A1 & A2 & A3).
      apply based_zero; assumption.
Qed.

End Base.
