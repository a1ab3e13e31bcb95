From Coq Require Import ZArith List Bool Lia Arith.
From Verif Require Import Bits HalfProofs TaskMemModel TaskMemSpec.
Import ListNotations.
Open Scope Z_scope.

Lemma align_up_spec p k : 0 <= k -> (align_up p (2 ^ k)) mod 2 ^ k = 0 /\ p <= align_up p (2 ^ k) <= p + (2 ^ k - 1).
Proof.
  intros Hk. unfold align_up. set (a := 2 ^ k). assert (PA : 0 < a) by (apply pow2_pos; auto).
  assert (E : Z.land (p + (a - 1)) (Z.lnot (a - 1)) = (p + (a - 1)) - (p + (a - 1)) mod a).
  { rewrite <- Z.ldiff_land. replace (a - 1) with (Z.ones k) at 2 by (rewrite Z.ones_equiv; unfold a; lia).
    rewrite Z.ldiff_ones_r by auto. rewrite Z.shiftl_mul_pow2, Z.shiftr_div_pow2 by auto. fold a.
    pose proof (Z.div_mod (p + (a - 1)) a ltac:(lia)). lia. }
  rewrite E. pose proof (Z.mod_pos_bound (p + (a - 1)) a PA). split; [|lia].
  pose proof (Z.div_mod (p + (a - 1)) a ltac:(lia)) as D. replace (p + (a - 1) - (p + (a - 1)) mod a) with ((p + (a - 1)) / a * a) by lia.
  apply Z.mod_mul. lia.
Qed.

(** Buffers in use are large enough for the offset, and small. *)
Definition mem_ok (m : mem) : Prop :=
  0 <= m_off m /\ m_off m <= m_size m (m_cur m) /\ (m_cur m < num_buffers)%nat /\
  forall k, (k <= m_cur m)%nat -> 0 < m_size m k <= 2 ^ 30.

Lemma alloc_ok fuel m size k p m1 : mem_ok m -> small size k -> alloc fuel m size (2 ^ k) = Some (p, m1) ->
  mem_ok m1 /\ p mod 2 ^ k = 0 /\ (m_cur m <= m_cur m1)%nat /\
  (forall j, (j <= m_cur m)%nat -> m_size m1 j = m_size m j /\ m_base m1 j = m_base m j) /\
  m_base m1 (m_cur m1) <= p /\ p + size = m_base m1 (m_cur m1) + m_off m1 /\
  (m_cur m1 = m_cur m -> m_base m (m_cur m) + m_off m <= p).
Proof.
  revert m. induction fuel as [|fuel IH]; intros m OK SM H; cbn [alloc] in H.
  all: destruct SM as (S0 & K0 & S1); destruct OK as (O0 & O1 & O2 & O3).
  all: pose proof (align_up_spec (m_base m (m_cur m) + m_off m) k K0) as (AM & AL & AU).
  all: set (q := align_up (m_base m (m_cur m) + m_off m) (2 ^ k)) in *.
  all: pose proof (O3 (m_cur m) (Nat.le_refl _)) as SZ.
  all: assert (W : wraps 32 (q - m_base m (m_cur m) + size) = q - m_base m (m_cur m) + size)
         by (apply wraps_id; unfold in_s; change (2 ^ (32 - 1)) with (2 * 2 ^ 30); lia).
  all: rewrite W in H.
  all: destruct (Z.ltb_spec (q - m_base m (m_cur m) + size) (m_size m (m_cur m))) as [L|L]; [|try discriminate].
  1,2: injection H as <- <-; cbn [m_cur m_off m_size m_base]; split; [split; cbn [m_cur m_off m_size]; [lia|split; [lia|split; auto]]|];
    split; auto; split; auto; split; auto; split; [lia|]; split; lia.
  destruct (Nat.ltb_spec (S (m_cur m)) num_buffers) as [NB|NB]; [|discriminate].
  assert (W2 : wraps 32 (size + 2 ^ k) = size + 2 ^ k).
  { apply wraps_id; unfold in_s; change (2 ^ (32 - 1)) with (2 * 2 ^ 30); pose proof (pow2_pos k K0); lia. }
  rewrite W2 in H. pose proof (pow2_pos k K0).
  assert (P1 : 2 ^ (12 + Z.of_nat (S (m_cur m))) <= 2 ^ 30).
  { apply Z.pow_le_mono_r; [lia|]. unfold num_buffers in NB. lia. }
  pose proof (pow2_pos (12 + Z.of_nat (S (m_cur m))) ltac:(lia)).
  apply IH in H; [|split; cbn [m_cur m_off m_size]|split; [exact S0|split; auto]].
  - cbn [m_cur m_off m_size m_base] in H. destruct H as (A & B & C & D & E & F & G).
    split; auto. split; auto. split; [lia|]. split.
    + intros j HJ. destruct (D j ltac:(lia)) as (D1 & D2). rewrite D1, D2.
      destruct (Nat.eqb_spec j (S (m_cur m))); [lia|]. auto.
    + split; auto. split; auto. lia.
  - lia.
  - rewrite Nat.eqb_refl. split; [lia|]. split; auto.
    intros j HJ. destruct (Nat.eqb_spec j (S (m_cur m))) as [->|N]; [lia|]. apply O3. lia.
Qed.

Lemma alloc_memory_eq m size al : alloc_memory m size al = alloc num_buffers m size al.
Proof. reflexivity. Qed.

(** The blocks handed out so far. *)
Definition blocks_ok (m : mem) (bs : list block) : Prop :=
  (forall b, In b bs -> in_buffer m b /\ 0 <= b_size b) /\ ForallOrdPairs apart bs /\
  forall b, In b bs -> b_buf b = m_cur m -> b_addr b + b_size b <= m_base m (m_cur m) + m_off m.

Lemma blocks_step m bs size k p m1 : mem_ok m -> blocks_ok m bs -> small size k -> alloc_memory m size (2 ^ k) = Some (p, m1) ->
  mem_ok m1 /\ blocks_ok m1 ({| b_buf := m_cur m1; b_addr := p; b_size := size |} :: bs) /\ p mod 2 ^ k = 0.
Proof.
  intros OK (B1 & B2 & B3) SM H. rewrite alloc_memory_eq in H. destruct (alloc_ok num_buffers _ _ _ _ _ OK SM H) as (OK1 & AM & CM & SAME & P0 & P1 & P2).
  destruct SM as (S0 & _). destruct OK1 as (O0 & O1 & O2 & O3).
  assert (BUF : forall b, In b bs -> in_buffer m1 b).
  { intros b HB. destruct (B1 b HB) as ((C1 & C2 & C3) & _). destruct (SAME _ C1) as (E1 & E2).
    split; [lia|]. rewrite E1, E2. auto. }
  split; [split; auto|]. split; auto. split; [|split].
  - intros b [<-|HB]; [|split; [auto|apply B1; auto]]. split; auto. split; cbn [b_buf b_addr b_size]; [auto|]. split; [auto|]. lia.
  - constructor; auto. apply Forall_forall. intros b HB. unfold apart. cbn [b_buf b_addr b_size].
    destruct (Nat.eq_dec (m_cur m1) (b_buf b)) as [E|E]; auto. right. right.
    destruct (B1 b HB) as ((C1 & _) & _). assert (EQ : m_cur m1 = m_cur m) by lia. specialize (P2 EQ).
    specialize (B3 b HB ltac:(lia)). lia.
  - intros b [<-|HB] E; cbn [b_buf b_addr b_size] in *; [lia|].
    destruct (B1 b HB) as ((C1 & _) & _). assert (EQ : m_cur m1 = m_cur m) by lia. specialize (P2 EQ).
    specialize (B3 b HB ltac:(lia)). lia.
Qed.

Lemma allocs_ok reqs m acc bs m1 : mem_ok m -> blocks_ok m acc ->
  (forall size al, In (size, al) reqs -> exists k, al = 2 ^ k /\ small size k) ->
  allocs m reqs acc = Some (bs, m1) -> mem_ok m1 /\ blocks_ok m1 bs.
Proof.
  revert m acc. induction reqs as [|[size al] r IH]; cbn [allocs]; intros m acc OK BO RQ H; [injection H as <- <-; auto|].
  destruct (RQ size al (or_introl eq_refl)) as (k & -> & SM).
  destruct (alloc_memory m size (2 ^ k)) as [[p m2]|] eqn:E; [|discriminate].
  destruct (blocks_step m acc size k p m2 OK BO SM E) as (OK2 & BO2 & _). eapply IH; eauto.
  intros s a HI. apply RQ. right. auto.
Qed.

Lemma allocs_aligned reqs m acc bs m1 : mem_ok m ->
  (forall size al, In (size, al) reqs -> exists k, al = 2 ^ k /\ small size k) ->
  allocs m reqs acc = Some (bs, m1) ->
  exists l, bs = rev l ++ acc /\ Forall2 (fun r b => b_size b = fst r /\ b_addr b mod snd r = 0) reqs l.
Proof.
  revert m acc. induction reqs as [|[size al] r IH]; cbn [allocs]; intros m acc OK RQ H.
  - injection H as <- <-. exists []. split; auto.
  - destruct (RQ size al (or_introl eq_refl)) as (k & -> & SM).
    destruct (alloc_memory m size (2 ^ k)) as [[p m2]|] eqn:E; [|discriminate].
    rewrite alloc_memory_eq in E. destruct (alloc_ok num_buffers _ _ _ _ _ OK SM E) as (OK2 & AM & _).
    destruct (IH m2 _ OK2 (fun s a HI => RQ s a (or_intror HI)) H) as (l & -> & F).
    exists ({| b_buf := m_cur m2; b_addr := p; b_size := size |} :: l). split; [cbn [rev]; rewrite <- app_assoc; auto|].
    constructor; auto.
Qed.

Lemma mem_init_ok base0 news : mem_ok (mem_init base0 news).
Proof.
  split; [cbn; lia|]. split; [cbn; lia|]. split; [cbn; unfold num_buffers; lia|]. intros k Hk. cbn in *.
  destruct (Nat.eqb_spec k 0); lia.
Qed.

Lemma mem_reset_ok m : mem_ok m -> mem_ok (mem_reset m).
Proof.
  intros (A & B & C & D). split; [cbn; lia|]. pose proof (D 0%nat (Nat.le_0_l _)). split; [cbn; lia|]. split; [cbn; unfold num_buffers; lia|].
  intros k Hk. cbn in *. apply D. lia.
Qed.

(** A new buffer is large enough for the request it was made for. *)
Lemma alloc_fits fuel m size al :
  (wraps 32 (align_up (m_base m (m_cur m) + m_off m) al - m_base m (m_cur m) + size) <? m_size m (m_cur m)) = true ->
  alloc fuel m size al = Some (align_up (m_base m (m_cur m) + m_off m) al,
    {| m_cur := m_cur m; m_off := wraps 32 (align_up (m_base m (m_cur m) + m_off m) al - m_base m (m_cur m) + size);
       m_size := m_size m; m_base := m_base m; m_new := m_new m; m_used := m_used m |}).
Proof. intros H. destruct fuel; cbn [alloc]; rewrite H; reflexivity. Qed.

Lemma alloc_room fuel m size k : small size k -> fuel <> 0%nat ->
  (S (m_cur m) < num_buffers)%nat -> alloc fuel m size (2 ^ k) <> None.
Proof.
  intros SM F NB. destruct fuel as [|fuel]; [congruence|]. cbn [alloc].
  destruct SM as (S0 & K0 & S1).
  match goal with |- (if ?c then _ else _) <> None => destruct c; [discriminate|] end.
  destruct (Nat.ltb_spec (S (m_cur m)) num_buffers); [|lia].
  assert (W2 : wraps 32 (size + 2 ^ k) = size + 2 ^ k).
  { apply wraps_id; unfold in_s; change (2 ^ (32 - 1)) with (2 * 2 ^ 30); pose proof (pow2_pos k K0); lia. }
  rewrite W2. rewrite alloc_fits; [discriminate|]. cbn [m_cur m_off m_size m_base]. rewrite Nat.eqb_refl.
  pose proof (align_up_spec (m_new m (m_used m) + 0) k K0) as (AM & AL & AU).
  set (q := align_up (m_new m (m_used m) + 0) (2 ^ k)) in *.
  assert (W : wraps 32 (q - m_new m (m_used m) + size) = q - m_new m (m_used m) + size)
         by (apply wraps_id; unfold in_s; change (2 ^ (32 - 1)) with (2 * 2 ^ 30); lia).
  rewrite W. apply Z.ltb_lt. lia.
Qed.

Lemma rounds_ok rs m : mem_ok m -> (forall r, In r rs -> Forall request_ok r) -> forall m1, rounds m rs = Some m1 -> mem_ok m1.
Proof.
  revert m. induction rs as [|r rs IH]; cbn [rounds]; intros m OK RQ m1 H; [injection H as <-; auto|].
  destruct (allocs m r []) as [[bs m2]|] eqn:E; [|discriminate].
  eapply IH; [|intros; apply RQ; right; auto|exact H]. apply mem_reset_ok.
  eapply allocs_ok; [exact OK| | |exact E].
  - split; [intros b []|]. split; [constructor|intros b []].
  - intros size al HI. specialize (RQ r (or_introl eq_refl)). rewrite Forall_forall in RQ. exact (RQ _ HI).
Qed.

Lemma apart_disjoint m bs : blocks_ok m bs -> buffers_disjoint m -> ForallOrdPairs disjoint bs.
Proof.
  intros (B1 & B2 & _) BD. clear - B1 B2 BD. induction B2 as [|b bs F B2 IH]; constructor.
  - rewrite Forall_forall in *. intros c HC. specialize (F c HC). destruct (B1 b (or_introl eq_refl)) as ((I1 & I2 & I3) & I4).
    destruct (B1 c (or_intror HC)) as ((J1 & J2 & J3) & J4). unfold disjoint. destruct F as [F|F]; [|exact F].
    destruct (BD _ _ I1 J1 F); lia.
  - apply IH. intros c HC. apply B1. right. auto.
Qed.

Lemma round_ok base0 news before reqs m bs m1 :
  Forall (Forall request_ok) before -> Forall request_ok reqs ->
  rounds (mem_init base0 news) before = Some m -> allocs m reqs [] = Some (bs, m1) ->
  Forall2 (fun r b => b_size b = fst r /\ b_addr b mod snd r = 0) reqs (rev bs) /\
  Forall (in_buffer m1) bs /\ (buffers_disjoint m1 -> ForallOrdPairs disjoint bs).
Proof.
  intros FB FR R A. rewrite Forall_forall in FB.
  assert (OK : mem_ok m) by (eapply rounds_ok; [apply mem_init_ok|exact FB|exact R]).
  assert (RQ : forall size al, In (size, al) reqs -> exists k, al = 2 ^ k /\ small size k).
  { intros size al HI. rewrite Forall_forall in FR. exact (FR _ HI). }
  assert (BO : blocks_ok m []) by (split; [intros b []|]; split; [constructor|intros b []]).
  destruct (allocs_ok _ _ _ _ _ OK BO RQ A) as (_ & B).
  destruct (allocs_aligned _ _ _ _ _ OK RQ A) as (l & -> & F2). rewrite app_nil_r in *. rewrite rev_involutive.
  split; auto. split; [apply Forall_forall; intros b HB; apply B; auto|apply apart_disjoint; auto].
Qed.

Lemma assertion_only_when_full base0 news before m size al :
  Forall (Forall request_ok) before -> request_ok (size, al) ->
  rounds (mem_init base0 news) before = Some m ->
  forall reqs bs m1, Forall request_ok reqs -> allocs m reqs [] = Some (bs, m1) -> (S (m_cur m1) < num_buffers)%nat ->
  alloc_memory m1 size al <> None.
Proof.
  intros FB (k & EK & SM) R reqs bs m1 FR A NB. rewrite alloc_memory_eq. cbn [fst snd] in SM, EK. subst al. apply alloc_room; auto. discriminate.
Qed.

(** ** The implicit sync *)
Lemma emit_flag s l : snd (emit l s) = l || has_launch s.
Proof.
  revert l. induction s; intros l; cbn; rewrite ?orb_false_r, ?orb_true_r; auto.
  - specialize (IHs1 l). destruct (emit l s1) as [k1 l1]. cbn in IHs1. specialize (IHs2 l1). destruct (emit l1 s2) as [k2 l2]. cbn in *.
    rewrite IHs2, IHs1. rewrite orb_assoc. auto.
  - specialize (IHs1 l). destruct (emit l s1) as [k1 l1]. cbn in IHs1. specialize (IHs2 l1). destruct (emit l1 s2) as [k2 l2]. cbn in *.
    rewrite IHs2, IHs1. rewrite orb_assoc. auto.
  - specialize (IHs l). destruct (emit l s) as [k1 l1]. cbn in *. auto.
Qed.

(** Loops: what holds of every execution of the body. *)
Lemma loop_return k h h' : exec (KLoop k) h h' OReturn -> (forall h h', exec k h h' OReturn -> h' = false) -> h' = false.
Proof.
  intros X B. remember (KLoop k) as kk eqn:E. remember OReturn as r eqn:R. revert E R.
  induction X; intros E R; try discriminate; injection E as ->; subst; eauto.
Qed.
Lemma loop_pending k h h' r : exec (KLoop k) h h' r -> (forall h h' r, exec k h h' r -> h = false -> h' = false) -> h = false -> h' = false.
Proof.
  intros X B. remember (KLoop k) as kk eqn:E. revert E.
  induction X; intros E HF; try discriminate; injection E as ->; subst; eauto.
Qed.

(** Code without launches leaves nothing pending; code without returns does not return. *)
Lemma no_launch s l h h' r : has_launch s = false -> exec (fst (emit l s)) h h' r -> h = false -> h' = false.
Proof.
  revert l h h' r. induction s; intros l h h' r NL X HF; cbn in *; try discriminate; try (inversion X; subst; auto; fail).
  - inversion X; subst. destruct l; auto.
  - apply orb_false_iff in NL as (N1 & N2). specialize (IHs1 l). destruct (emit l s1) as [k1 l1]. specialize (IHs2 l1).
    destruct (emit l1 s2) as [k2 l2]. cbn in *. inversion X; subst; [eapply IHs2; eauto; eapply IHs1; eauto|eapply IHs1; eauto].
  - apply orb_false_iff in NL as (N1 & N2). specialize (IHs1 l). destruct (emit l s1) as [k1 l1]. specialize (IHs2 l1).
    destruct (emit l1 s2) as [k2 l2]. cbn in *. inversion X; subst; [eapply IHs1; eauto|eapply IHs2; eauto].
  - specialize (IHs l). destruct (emit l s) as [k1 l1]. cbn in *. eapply loop_pending; eauto.
Qed.

Lemma no_return s l h h' : has_return s = false -> ~ exec (fst (emit l s)) h h' OReturn.
Proof.
  revert l h h'. induction s; intros l h h' NR X; cbn in *; try discriminate; try (inversion X; fail).
  - apply orb_false_iff in NR as (N1 & N2). specialize (IHs1 l). destruct (emit l s1) as [k1 l1]. specialize (IHs2 l1).
    destruct (emit l1 s2) as [k2 l2]. cbn in *. inversion X; subst; [eapply IHs2; eauto|eapply IHs1; eauto].
  - apply orb_false_iff in NR as (N1 & N2). specialize (IHs1 l). destruct (emit l s1) as [k1 l1]. specialize (IHs2 l1).
    destruct (emit l1 s2) as [k2 l2]. cbn in *. inversion X; subst; [eapply IHs1; eauto|eapply IHs2; eauto].
  - specialize (IHs l). destruct (emit l s) as [k1 l1]. cbn in *.
    remember (KLoop k1) as kk eqn:E. remember OReturn as r eqn:R. revert E R.
    induction X; intros E R; try discriminate; injection E as ->; subst; eauto; eapply IHs; eauto.
Qed.

(** With the flag set all returns sync. *)
Lemma flag_set s h h' : exec (fst (emit true s)) h h' OReturn -> h' = false.
Proof.
  revert h h'. induction s; intros h h' X; cbn in *; try (inversion X; subst; auto; fail).
  - pose proof (emit_flag s1 true) as F1. destruct (emit true s1) as [k1 l1]. cbn in F1. subst l1.
    destruct (emit true s2) as [k2 l2]. cbn in *. inversion X; subst; [eapply IHs2; eauto|eapply IHs1; eauto].
  - pose proof (emit_flag s1 true) as F1. destruct (emit true s1) as [k1 l1]. cbn in F1. subst l1.
    destruct (emit true s2) as [k2 l2]. cbn in *. inversion X; subst; [eapply IHs1; eauto|eapply IHs2; eauto].
  - destruct (emit true s) as [k1 l1]. cbn in *. eapply loop_return; eauto.
Qed.

(** A loop body that may be entered with tasks pending although the flag is not set. *)
Lemma body_pending s l h h' : return_then_launch s = false -> has_launch s = true -> exec (fst (emit l s)) h h' OReturn -> h' = false.
Proof.
  revert l h h'. induction s; intros l h h' RL HL X; cbn in *; try discriminate; try (inversion X; fail).
  1,2: rewrite !orb_false_iff, andb_false_iff in RL; destruct RL as ((RL & R1) & R2);
    pose proof (emit_flag s1 l) as F1; specialize (IHs1 l); pose proof (fun h h' => no_return s1 l h h') as NR;
    destruct (emit l s1) as [k1 l1] eqn:E1; cbn [snd fst] in *;
    specialize (IHs2 l1); destruct (emit l1 s2) as [k2 l2] eqn:E2; cbn [fst] in *;
    (assert (A : forall h h', exec k1 h h' OReturn -> h' = false) by
      (intros; destruct (has_launch s1) eqn:H1; [eapply IHs1; eauto|];
       cbn in HL; rewrite HL in RL; destruct RL as [RL|RL]; [|discriminate]; exfalso; eapply NR; eauto));
    (assert (B : forall h h', exec k2 h h' OReturn -> h' = false) by
      (intros; destruct (has_launch s2) eqn:H2; [eapply IHs2; eauto|]; rewrite orb_false_r in HL;
       rewrite HL, orb_true_r in F1; subst l1; eapply (flag_set s2); rewrite E2; cbn; eauto));
    inversion X; subst; eauto.
  specialize (IHs l). destruct (emit l s) as [k1 l1]. cbn in *. eapply loop_return; eauto.
Qed.

Lemma emit_returns s l h h' : loops_ok s = true -> (l = false -> h = false) -> exec (fst (emit l s)) h h' OReturn -> h' = false.
Proof.
  revert l h h'. induction s; intros l h h' LO HH X; cbn in *; try (inversion X; fail).
  - inversion X; subst. destruct l; auto.
  - apply andb_prop in LO as (L1 & L2). pose proof (emit_flag s1 l) as F1. specialize (IHs1 l).
    pose proof (fun h h' r => no_launch s1 l h h' r) as NL. destruct (emit l s1) as [k1 l1] eqn:E1. cbn [snd fst] in *.
    specialize (IHs2 l1). destruct (emit l1 s2) as [k2 l2] eqn:E2. cbn [fst] in *. inversion X; subst.
    + eapply IHs2; [exact L2| |eassumption]. intros F. rewrite orb_false_iff in F. destruct F as (F1 & F2). eapply NL; eauto.
    + eapply IHs1; eauto.
  - apply andb_prop in LO as (L1 & L2). pose proof (emit_flag s1 l) as F1. specialize (IHs1 l).
    destruct (emit l s1) as [k1 l1] eqn:E1. cbn [snd fst] in *.
    specialize (IHs2 l1). destruct (emit l1 s2) as [k2 l2] eqn:E2. cbn [fst] in *. inversion X; subst.
    + eapply IHs1; eauto.
    + eapply IHs2; [exact L2| |eassumption]. intros F. rewrite orb_false_iff in F. destruct F as (F1 & F2). auto.
  - apply andb_prop in LO as (L1 & L2). apply negb_true_iff in L1.
    pose proof (fun h h' => body_pending s l h h' L1) as BP. pose proof (fun h h' r => no_launch s l h h' r) as NL.
    pose proof (fun h h' => flag_set s h h') as FS. destruct l.
    { destruct (emit true s) as [k1 l1]. cbn in *. eapply loop_return; eauto. }
    destruct (emit false s) as [k1 l1]. cbn in *. specialize (HH eq_refl).
    destruct (has_launch s); [eapply loop_return; eauto|eapply loop_pending; eauto].
Qed.

Lemma once_returns s l h' r : loops_ok s = true -> exec (KSeq (fst (emit l s)) (KReturn (snd (emit l s)))) false h' r -> r = OReturn -> h' = false.
Proof.
  intros LO X ->. pose proof (emit_flag s l) as F. pose proof (emit_returns s l false) as ER.
  pose proof (no_launch s l false) as NL. destruct (emit l s) as [k l1]. cbn in *. inversion X; subst; auto.
  match goal with H : exec (KReturn _) _ _ _ |- _ => inversion H; subst end.
  destruct l; auto. cbn in *. destruct (has_launch s); auto. eapply NL; eauto.
Qed.

Lemma function_returns cm s h' : loops_ok s = true -> exec (emit_function cm s) false h' OReturn -> h' = false.
Proof.
  intros LO X. unfold emit_function in X. pose proof (once_returns s false h' OReturn LO) as R1.
  destruct (emit false s) as [k1 l1]. cbn in R1. destruct cm; [|auto].
  pose proof (once_returns s l1 h' OReturn LO) as R2. destruct (emit l1 s) as [k2 l2]. cbn in R2. inversion X; subst; auto.
Qed.

Lemma second_copy_returns s a b h' : emit_function true s = KIf a b -> exec b false h' OReturn -> h' = false.
Proof.
  unfold emit_function. intros E X. pose proof (emit_flag s false) as F1. destruct (emit false s) as [k1 l1] eqn:E1. cbn in F1. subst l1.
  destruct (emit (has_launch s) s) as [k2 l2] eqn:E2. injection E as <- <-.
  pose proof (emit_flag s (has_launch s)) as F2. rewrite E2, orb_diag in F2. cbn in F2. subst l2.
  destruct (has_launch s) eqn:HL.
  - pose proof (flag_set s) as FS. rewrite E2 in FS. cbn in FS. inversion X; subst; eauto.
    match goal with H : exec (KReturn _) _ _ _ |- _ => inversion H; subst end. reflexivity.
  - pose proof (no_launch s false) as NL. rewrite E2 in NL. cbn in NL. inversion X; subst; eauto.
    match goal with H : exec (KReturn _) _ _ _ |- _ => inversion H; subst end. eauto.
Qed.

(** ** The emitted code does what the source says *)
Lemma emit_seq l a b : fst (emit l (SSeq a b)) = KSeq (fst (emit l a)) (fst (emit (snd (emit l a)) b)).
Proof. cbn. destruct (emit l a) as (ka, l1). destruct (emit l1 b) eqn:E. cbn. now rewrite E. Qed.
Lemma emit_if l a b : fst (emit l (SIf a b)) = KIf (fst (emit l a)) (fst (emit (snd (emit l a)) b)).
Proof. cbn. destruct (emit l a) as (ka, l1). destruct (emit l1 b) eqn:E. cbn. now rewrite E. Qed.
Lemma emit_loop l a : fst (emit l (SLoop a)) = KLoop (fst (emit l a)).
Proof. cbn. now destruct (emit l a). Qed.

Lemma exec_behaves c h1 h2 r : exec c h1 h2 r -> forall l s, c = fst (emit l s) -> behaves s h1 h2 r.
Proof.
  induction 1; intros l s E; destruct s; try rewrite emit_seq in E; try rewrite emit_if in E; try rewrite emit_loop in E;
    cbn [emit fst] in E; try discriminate; try injection E as E1 E2; try (injection E as E1); subst; try (econstructor; eauto; fail).
  - eapply b_again; eauto. apply (IHexec2 l). now rewrite emit_loop.
Qed.

Lemma behaves_exec s h1 h2 r : behaves s h1 h2 r -> forall l, exists h3, exec (fst (emit l s)) h1 h3 r /\ (r <> OReturn -> h3 = h2).
Proof.
  induction 1; intros l; try rewrite emit_seq; try rewrite emit_if; try rewrite emit_loop; try (cbn; eexists; split; [constructor|congruence]; fail).
  - destruct (IHbehaves1 l) as (x & X1 & X2). specialize (X2 ltac:(discriminate)). subst x.
    destruct (IHbehaves2 (snd (emit l a))) as (y & Y1 & Y2). exists y. split; auto. econstructor; eauto.
  - destruct (IHbehaves l) as (x & X1 & X2). exists x. split; auto. apply x_seq_leave; auto.
  - destruct (IHbehaves l) as (x & X1 & X2). exists x. split; auto. now apply x_then.
  - destruct (IHbehaves (snd (emit l a))) as (x & X1 & X2). exists x. split; auto. now apply x_else.
  - destruct (IHbehaves1 l) as (x & X1 & X2). rewrite X2 in X1 by (destruct H0; subst; discriminate).
    destruct (IHbehaves2 l) as (y & Y1 & Y2). rewrite emit_loop in Y1. exists y. split; auto. eapply x_again; eauto.
  - destruct (IHbehaves l) as (x & X1 & X2). exists x. split; [now apply x_loop_break|]. intros _. apply X2. discriminate.
  - destruct (IHbehaves l) as (x & X1 & X2). exists x. split; [now apply x_loop_return|]. auto.
Qed.

Lemma same_behaviour l s h1 h2 r :
  (r <> OReturn -> exec (fst (emit l s)) h1 h2 r <-> behaves s h1 h2 r) /\
  ((exists h, exec (fst (emit l s)) h1 h OReturn) <-> (exists h, behaves s h1 h OReturn)).
Proof.
  split.
  - intros N. split; intros H; [eapply exec_behaves; eauto|]. destruct (behaves_exec s h1 h2 r H l) as (x & X1 & X2).
    now rewrite <- (X2 N).
  - split; intros (h & H); [exists h; eapply exec_behaves; eauto|]. destruct (behaves_exec s h1 h _ H l) as (x & X1 & X2). eauto.
Qed.

(** ** Requests that fit into the member array *)
Lemma small_fits reqs : forall m acc, mem_ok m -> m_cur m = 0%nat -> m_size m 0%nat = 256 -> Forall request_ok reqs -> m_off m + room reqs <= 256 ->
  exists bs m1, allocs m reqs acc = Some (bs ++ acc, m1) /\ m_used m1 = m_used m /\
    Forall (fun b => m_base m 0%nat <= b_addr b /\ b_addr b + b_size b <= m_base m 0%nat + 256) bs.
Proof.
  induction reqs as [|(size, al) reqs IH]; intros m acc OK C0 S0 R F; cbn [allocs room fold_right] in *.
  - exists [], m. split; [reflexivity|]. split; [reflexivity|constructor].
  - inversion R as [|? ? (k & K1 & K2) R']; subst. cbn [fst snd] in *. subst al. fold (room reqs) in F.
    pose proof OK as (O0 & O1 & _ & _). rewrite C0 in O1. destruct K2 as (Z0 & K0 & Z1). pose proof (pow2_pos k K0) as P.
    assert (N : 0 <= room reqs).
    { clear -R'. unfold room. induction R' as [|r l (k & K1 & (Z0 & K0 & _)) _ IHl]; cbn [fold_right]; [reflexivity|]. rewrite K1. pose proof (pow2_pos k K0). lia. }
    pose proof (align_up_spec (m_base m 0%nat + m_off m) k K0) as (_ & AL & AU).
    assert (W : wraps 32 (align_up (m_base m 0%nat + m_off m) (2 ^ k) - m_base m 0%nat + size) = align_up (m_base m 0%nat + m_off m) (2 ^ k) - m_base m 0%nat + size).
    { apply wraps_id; unfold in_s; change (2 ^ (32 - 1)) with (2 * 2 ^ 30); lia. }
    assert (A : alloc_memory m size (2 ^ k) = Some (align_up (m_base m 0%nat + m_off m) (2 ^ k),
      {| m_cur := 0; m_off := align_up (m_base m 0%nat + m_off m) (2 ^ k) - m_base m 0%nat + size; m_size := m_size m; m_base := m_base m; m_new := m_new m; m_used := m_used m |})).
    { rewrite alloc_memory_eq, alloc_fits; rewrite C0; rewrite W; [reflexivity|]. rewrite S0. apply Z.ltb_lt. lia. }
    rewrite A. cbn [m_cur].
    match goal with |- context [allocs ?m1 reqs ?acc1] => specialize (IH m1 acc1); assert (OK1 : mem_ok m1) end.
    { destruct OK as (_ & _ & O2 & O3). split; cbn [m_cur m_off m_size]; [lia|]. rewrite S0. split; [lia|]. split; [unfold num_buffers; lia|]. intros j J. apply O3. lia. }
    destruct (IH OK1 eq_refl S0 R') as (bs & m1 & B1 & B2 & B3); [cbn [m_off]; lia|].
    exists (bs ++ [{| b_buf := 0; b_addr := align_up (m_base m 0%nat + m_off m) (2 ^ k); b_size := size |}]), m1.
    split; [now rewrite <- app_assoc|]. split; [exact B2|]. apply Forall_app. split; [exact B3|]. constructor; [|constructor]. cbn. lia.
Qed.

Lemma allocs_first reqs : forall m acc bs m1, mem_ok m -> Forall request_ok reqs -> allocs m reqs acc = Some (bs, m1) ->
  m_size m1 0%nat = m_size m 0%nat /\ m_base m1 0%nat = m_base m 0%nat /\ mem_ok m1.
Proof.
  induction reqs as [|[size al] reqs IH]; cbn [allocs]; intros m acc bs m1 OK R H; [injection H as _ <-; auto|].
  assert (K : exists k, al = 2 ^ k /\ small size k) by exact (Forall_inv R). pose proof (Forall_inv_tail R) as R'. clear R.
  destruct K as (k & -> & SM). destruct (alloc_memory m size (2 ^ k)) as [[p m2]|] eqn:A; [|discriminate].
  rewrite alloc_memory_eq in A. destruct (alloc_ok num_buffers _ _ _ _ _ OK SM A) as (OK2 & _ & _ & D & _). destruct (D 0%nat (Nat.le_0_l _)) as (D1 & D2).
  destruct (IH _ _ _ _ OK2 R' H) as (H1 & H2 & H3). rewrite H1, H2. auto.
Qed.

Lemma rounds_first rs : forall m m1, mem_ok m -> m_cur m = 0%nat -> m_off m = 0 -> Forall (Forall request_ok) rs -> rounds m rs = Some m1 ->
  m_size m1 0%nat = m_size m 0%nat /\ m_base m1 0%nat = m_base m 0%nat /\ m_cur m1 = 0%nat /\ m_off m1 = 0 /\ mem_ok m1.
Proof.
  induction rs as [|r rs IH]; intros m m1 OK C0 O0 R H; cbn [rounds] in H; [injection H as <-; auto|].
  inversion R; subst. destruct (allocs m r []) as [(bs, m2)|] eqn:A; [|discriminate].
  destruct (allocs_first _ _ _ _ _ OK H2 A) as (A1 & A2 & A3). apply IH in H; auto using mem_reset_ok.
  cbn [mem_reset m_size m_base] in H. rewrite A1, A2 in H. exact H.
Qed.

Lemma small_requests base0 news before reqs m : Forall (Forall request_ok) before -> Forall request_ok reqs -> room reqs <= 256 ->
  rounds (mem_init base0 news) before = Some m ->
  exists bs m1, allocs m reqs [] = Some (bs, m1) /\ m_used m1 = m_used m /\
    Forall (fun b => base0 <= b_addr b /\ b_addr b + b_size b <= base0 + 256) bs.
Proof.
  intros B R F H. destruct (rounds_first before (mem_init base0 news) m (mem_init_ok base0 news) eq_refl eq_refl B H) as (H1 & H2 & H3 & H4 & H5).
  cbn in H1, H2. destruct (small_fits reqs m [] H5 H3 H1 R) as (bs & m1 & A & U & I0); [lia|]. rewrite app_nil_r in A. exists bs, m1. rewrite H2 in I0. auto.
Qed.

(** One larger request each time *)
Lemma alloc_grow fuel m size al : (wraps 32 (align_up (m_base m (m_cur m) + m_off m) al - m_base m (m_cur m) + size) <? m_size m (m_cur m)) = false ->
  (S (m_cur m) <? num_buffers)%nat = true ->
  alloc (S fuel) m size al = alloc fuel
    {| m_cur := S (m_cur m); m_off := 0;
       m_size := fun k => if Nat.eqb k (S (m_cur m)) then Z.max (wraps 32 (size + al)) (2 ^ (12 + Z.of_nat (S (m_cur m)))) else m_size m k;
       m_base := fun k => if Nat.eqb k (S (m_cur m)) then m_new m (m_used m) else m_base m k;
       m_new := m_new m; m_used := S (m_used m) |} size al.
Proof. intros H N. cbn [alloc]. rewrite H, N. reflexivity. Qed.

Lemma one_large m base0 : m_cur m = 0%nat -> m_off m = 0 -> m_size m 0%nat = 256 -> m_base m 0%nat = base0 ->
  exists bs m1, allocs m [(1000, 16)] [] = Some (bs, m1) /\ m_used m1 = S (m_used m) /\ m_new m1 = m_new m /\
    m_size m1 0%nat = 256 /\ m_base m1 0%nat = base0 /\ m_base m1 1%nat = m_new m (m_used m) /\ (forall k, (1 < k)%nat -> m_base m1 k = m_base m k).
Proof.
  intros C0 O0 S0 B0. cbn [allocs]. rewrite alloc_memory_eq.
  pose proof (align_up_spec (base0 + 0) 4 ltac:(lia)) as (_ & A1 & A2). pose proof (align_up_spec (m_new m (m_used m) + 0) 4 ltac:(lia)) as (_ & A3 & A4).
  change (2 ^ 4) with 16 in *. change num_buffers with (S 15).
  rewrite alloc_grow; rewrite C0; rewrite ?O0, ?S0, ?B0.
  2: { rewrite wraps_id by (unfold in_s; lia). apply Z.ltb_ge. lia. }
  2: reflexivity.
  rewrite alloc_fits; cbn [m_cur m_off m_size m_base m_new m_used Nat.eqb].
  2: { change (Z.max (wraps 32 (1000 + 16)) (2 ^ (12 + Z.of_nat 1))) with 8192. rewrite wraps_id by (unfold in_s; lia). apply Z.ltb_lt. lia. }
  eexists _, _. split; [reflexivity|]. cbn [m_cur m_off m_size m_base m_new m_used Nat.eqb]. repeat split; auto. intros [|[|j]] J; auto; lia.
Qed.

Lemma leak base0 news n : exists m, rounds (mem_init base0 news) (repeat [(1000, 16)] n) = Some m /\ m_used m = n /\
  m_base m 0%nat = base0 /\ (m_base m 1%nat = 0 \/ m_base m 1%nat = news (n - 1)%nat) /\ (forall k, (1 < k)%nat -> m_base m k = 0).
Proof.
  assert (G : forall n m, m_cur m = 0%nat -> m_off m = 0 -> m_size m 0%nat = 256 -> m_base m 0%nat = base0 -> m_new m = news ->
    (m_base m 1%nat = 0 \/ m_base m 1%nat = news (m_used m - 1)%nat) -> (forall k, (1 < k)%nat -> m_base m k = 0) ->
    exists m1, rounds m (repeat [(1000, 16)] n) = Some m1 /\ m_used m1 = (m_used m + n)%nat /\
      m_base m1 0%nat = base0 /\ (m_base m1 1%nat = 0 \/ m_base m1 1%nat = news (m_used m1 - 1)%nat) /\ (forall k, (1 < k)%nat -> m_base m1 k = 0)).
  { clear n. induction n as [|n IH]; intros m C0 O0 S0 B0 N0 B1 B2; cbn [repeat rounds].
    - exists m. rewrite Nat.add_0_r. auto.
    - destruct (one_large m base0 C0 O0 S0 B0) as (bs & m1 & A & U & N1 & S1 & B3 & B4 & B5). rewrite A.
      destruct (IH (mem_reset m1) eq_refl eq_refl S1 B3) as (m2 & R & U2 & T).
      + cbn. congruence.
      + right. cbn. rewrite U, B4, N0. f_equal. lia.
      + intros k K. cbn. rewrite B5 by auto. auto.
      + exists m2. split; [exact R|]. split; [cbn in U2; lia|exact T]. }
  destruct (G n (mem_init base0 news) eq_refl eq_refl eq_refl eq_refl eq_refl) as (m1 & R & U & B0 & B1 & B2); [now left| |].
  - intros [|k] K; [lia|reflexivity].
  - exists m1. cbn in U. rewrite U in *. auto.
Qed.
