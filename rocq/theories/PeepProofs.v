(** Proofs about PeepModel. *)
From Coq Require Import ZArith List Bool Lia.
From Verif Require Import Bits SatModel LanesModel PeepModel PeepSpec.
Import ListNotations.
Local Open Scope Z_scope.

(** ** Ranges *)
Lemma typed_bits T e : typed T e -> 0 < bits (ty_of T e).
Proof.
  induction e; cbn [typed ty_of bits]; intros H; try tauto; try lia; try (now apply IHe).
  - destruct H as [H [E1 H1]], c; specialize (IHe H); lia.
  - destruct f; cbn; lia.
Qed.

Lemma in_u_mono m n x : m <= n -> 0 <= m -> in_u m x -> in_u n x.
Proof.
  unfold in_u. intros H H0 [A B]. split; [lia|].
  apply Z.lt_le_trans with (1 := B). apply Z.pow_le_mono_r; lia.
Qed.

Lemma shiftr_range n x y : in_u n x -> 0 <= y -> in_u n (Z.shiftr x y).
Proof.
  unfold in_u. intros [A B] H. rewrite Z.shiftr_div_pow2 by lia.
  assert (0 < 2 ^ y) by (apply Z.pow_pos_nonneg; lia). split.
  - apply Z.div_pos; lia.
  - apply Z.le_lt_trans with x; [|lia]. apply Z.div_le_upper_bound; [lia|]. nia.
Qed.

Lemma bin_range o n x y v : 0 < n -> in_u n x -> in_u n y -> bin_lane o n x y = Some v -> in_u n v.
Proof.
  intros Hn Hx Hy. destruct o; cbn [bin_lane].
  - intros [= <-]. apply wrapu_range. lia.
  - destruct (Z.eqb_spec y 0) as [|E]; intros [= <-]. unfold in_u in *. split.
    + apply Z.div_pos; lia.
    + apply Z.le_lt_trans with x; [|lia]. apply Z.div_le_upper_bound; nia.
  - destruct (_ || _); intros [= <-]. apply wrapu_range. lia.
  - destruct (y <? n); intros [= <-]. apply shiftr_range; [assumption|]. unfold in_u in Hy. lia.
  - destruct (y <? n); intros [= <-]. apply wrapu_range. lia.
Qed.

Lemma avg_range k f x y : in_u (avg_bits f) (avg_lane k f x y).
Proof.
  unfold avg_lane, pavg, sgn, avg_up_u_m4, avg_up_u_generic, avg_down_u_m4, avg_down_u_generic.
  destruct f, k; cbn [avg_bits]; apply wrapu_range; lia.
Qed.

(** Every lane of shift() is a lane of its operand or zero. *)
Lemma shift_lane_cases T n v i l x : shift_lane T n v i l = Some x ->
  x = 0 \/ exists j, (j < width T)%nat /\ v j = Some x.
Proof.
  unfold shift_lane. destruct (via_shuffle T n).
  - unfold shift_via_shuffle, shuffle, extract. cbv zeta.
    set (s := wraps 32 _).
    destruct ((0 <=? s) && (s <? Z.of_nat (width T))) eqn:E.
    + cbn. intros H. right. exists (Z.to_nat s). split; [|assumption]. lia.
    + cbn. intros [= <-]. now left.
  - unfold shift_mem, extract. cbv zeta. set (s := _ + Z.of_nat l).
    destruct ((0 <=? s) && (s <? Z.of_nat (3 * width T))) eqn:E; [|discriminate].
    destruct (Nat.ltb_spec (Z.to_nat s) (width T)); [intros [= <-]; now left|].
    destruct (Nat.ltb_spec (Z.to_nat s) (2 * width T)); [|intros [= <-]; now left].
    cbn. intros H'. right. eexists. split; [|exact H']. lia.
Qed.

Lemma lane_range T rho amt e : typed T e -> forall l v, lane T rho amt e l = Some v -> in_u (bits (ty_of T e)) v.
Proof.
  induction e; cbn [typed ty_of lane]; intros H l' w.
  - intros [= <-]. apply wrapu_range. lia.
  - intros [= <-]. apply wrapu_range. lia.
  - destruct H as [H [E1 H1]]. destruct (lane T rho amt e l') as [x|] eqn:E; [|discriminate].
    intros [= <-]. specialize (IHe H _ _ E). pose proof (typed_bits _ _ H).
    destruct c; cbn [cast_lane]; try (apply wrapu_range; lia).
    eapply in_u_mono; [| |exact IHe]; lia.
  - destruct H as [H1 [H2 E]].
    destruct (lane T rho amt e1 l') as [x|] eqn:E1, (lane T rho amt e2 l') as [y|] eqn:E2; try discriminate.
    apply bin_range; [now apply typed_bits|now apply (IHe1 H1 l')|rewrite E; now apply (IHe2 H2 l')].
  - destruct (lane T rho amt e1 l') as [x|] eqn:E1, (lane T rho amt e2 l') as [y|] eqn:E2; try discriminate.
    intros [= <-]. apply avg_range.
  - destruct H as [H [H1 H2]]. intros Q. apply shift_lane_cases in Q as [->|[j [_ Q]]]; [|now apply (IHe H j)].
    pose proof (typed_bits _ _ H). unfold in_u. split; [lia|]. apply Z.pow_pos_nonneg; lia.
  - destruct H as [H H1]. intros Q. apply shift_lane_cases in Q as [->|[j [_ Q]]]; [|now apply (IHe H j)].
    pose proof (typed_bits _ _ H). unfold in_u. split; [lia|]. apply Z.pow_pos_nonneg; lia.
  - destruct H as [H [H1 H2]]. cbv zeta. destruct (_ && _); [now apply IHe|].
    destruct (_ && _); [|discriminate]. intros [= <-].
    pose proof (typed_bits _ _ H). unfold in_u. split; [lia|]. apply Z.pow_pos_nonneg; lia.
Qed.

(** ** Keeping results through the instructions *)
Lemma keeps_refl T e : keeps T e e.
Proof. unfold keeps. auto. Qed.
Lemma keeps_trans T a b c : keeps T a b -> keeps T b c -> keeps T a c.
Proof. unfold keeps. eauto. Qed.

Lemma keeps_cast T c t a a' : ty_of T a' = ty_of T a -> keeps T a a' -> keeps T (Cast c t a) (Cast c t a').
Proof.
  unfold keeps. cbn [lane]. intros E K rho amt l v L. rewrite E.
  destruct (lane T rho amt a l) as [x|] eqn:Q; [|discriminate]. now rewrite (K _ _ _ _ L Q).
Qed.
Lemma keeps_bin T o a b a' b' : ty_of T a' = ty_of T a -> keeps T a a' -> keeps T b b' -> keeps T (Bin o a b) (Bin o a' b').
Proof.
  unfold keeps. cbn [lane]. intros E K1 K2 rho amt l v L. rewrite E.
  destruct (lane T rho amt a l) as [x|] eqn:Q, (lane T rho amt b l) as [y|] eqn:Q2; try discriminate.
  now rewrite (K1 _ _ _ _ L Q), (K2 _ _ _ _ L Q2).
Qed.
Lemma keeps_avg T f a b a' b' : keeps T a a' -> keeps T b b' -> keeps T (Avg f a b) (Avg f a' b').
Proof.
  unfold keeps. cbn [lane]. intros K1 K2 rho amt l v L.
  destruct (lane T rho amt a l) as [x|] eqn:Q, (lane T rho amt b l) as [y|] eqn:Q2; try discriminate.
  now rewrite (K1 _ _ _ _ L Q), (K2 _ _ _ _ L Q2).
Qed.
Lemma shift_lane_keeps T n v v' i l x : (forall j y, (j < width T)%nat -> v j = Some y -> v' j = Some y) ->
  shift_lane T n v i l = Some x -> shift_lane T n v' i l = Some x.
Proof.
  intros K. unfold shift_lane. destruct (via_shuffle T n).
  - unfold shift_via_shuffle, shuffle, extract. cbv zeta. set (s := wraps 32 _).
    destruct ((0 <=? s) && (s <? Z.of_nat (width T))) eqn:E; [|auto]. cbn. apply K. lia.
  - unfold shift_mem, extract. cbv zeta. set (s := _ + Z.of_nat l).
    destruct ((0 <=? s) && (s <? Z.of_nat (3 * width T))) eqn:E; [|auto].
    destruct (Nat.ltb_spec (Z.to_nat s) (width T)); [auto|].
    destruct (Nat.ltb_spec (Z.to_nat s) (2 * width T)); [|auto]. cbn. apply K. lia.
Qed.
Lemma keeps_shift T s v v' n : ty_of T v' = ty_of T v -> keeps T v v' -> keeps T (Shift s v n) (Shift s v' n).
Proof.
  unfold keeps. cbn [lane]. intros E K rho amt l x L. rewrite E. apply shift_lane_keeps. eauto.
Qed.
Lemma keeps_shift_by T s v v' i : ty_of T v' = ty_of T v -> keeps T v v' -> keeps T (ShiftBy s v i) (ShiftBy s v' i).
Proof.
  unfold keeps. cbn [lane]. intros E K rho amt l x L. rewrite E. apply shift_lane_keeps. eauto.
Qed.
Lemma keeps_shuffle T v v' idx : keeps T v v' -> keeps T (Shuffle v idx) (Shuffle v' idx).
Proof.
  unfold keeps. cbn [lane]. intros K rho amt l x L. cbv zeta.
  destruct ((0 <=? nth l idx (-1)) && (nth l idx (-1) <? Z.of_nat (width T))) eqn:E; [|auto].
  apply K. lia.
Qed.

(** ** Matching *)
Lemma ty_eqb_eq a b : ty_eqb a b = true -> a = b.
Proof.
  unfold ty_eqb. destruct a, b; cbn. intros H. apply andb_true_iff in H as [A B].
  apply Nat.eqb_eq in A. apply Z.eqb_eq in B. now subst.
Qed.

Lemma m_cast_inv {A} T c from to (p : expr -> option A) e r : m_cast T c from to p e = Some r ->
  exists x, e = Cast c (Vec (width T) to) x /\ ty_of T x = Vec (width T) from /\ p x = Some r.
Proof.
  destruct e; cbn [m_cast]; try discriminate.
  destruct (cast_eqb c0 c && ty_eqb t _ && ty_eqb _ _) eqn:E; [|discriminate].
  apply andb_true_iff in E as [E E3]. apply andb_true_iff in E as [E1 E2].
  apply ty_eqb_eq in E2, E3. subst t. intros H. exists e. repeat split; auto.
  destruct c0, c; try discriminate; reflexivity.
Qed.

Lemma splat_forall l c : splat l = Some c -> l <> [] /\ Forall (eq c) l.
Proof.
  destruct l as [|x r]; cbn; [discriminate|]. destruct (forallb (Z.eqb x) r) eqn:E; [|discriminate].
  intros [= <-]. split; [discriminate|]. constructor; [reflexivity|].
  apply Forall_forall. intros y Hy. rewrite forallb_forall in E. apply E in Hy. now apply Z.eqb_eq.
Qed.
Lemma cdv_splat_inv l c : cdv_splat l = Some c -> splat l = Some c /\ c <> 0.
Proof.
  unfold cdv_splat. destruct (splat l) as [d|]; [|discriminate].
  destruct (Z.eqb_spec d 0); [discriminate|]. intros [= <-]. auto.
Qed.

Lemma m_udiv2_inv {A} (p : expr -> option A) e r : m_udiv2 p e = Some r ->
  exists o a t l c, e = Bin o a (Cst t l) /\ splat l = Some c /\ c <> 0 /\ p a = Some r /\
    (o = UDiv /\ c < 4 \/ o = LShr /\ c < 2).
Proof.
  unfold m_udiv2. destruct e as [| | |o a b| | | |]; try discriminate. destruct b as [|t l| | | | | |]; try discriminate.
  destruct (cdv_splat l) as [c|] eqn:E; [|discriminate]. apply cdv_splat_inv in E as [E N].
  unfold isIntN.
  destruct o; try discriminate.
  - destruct (Z.ltb_spec c (2 ^ 2)); [|discriminate]. intros P. exists UDiv, a, t, l, c.
    repeat split; auto.
  - destruct (Z.ltb_spec c (2 ^ 1)); [|discriminate]. intros P. exists LShr, a, t, l, c.
    repeat split; auto.
Qed.

Lemma m_add_inv {A B} (p : expr -> option A) (q : expr -> option B) e x y : m_add p q e = Some (x, y) ->
  exists a b, e = Bin Add a b /\ p a = Some x /\ q b = Some y.
Proof.
  unfold m_add. destruct e as [| | |o a b| | | |]; try discriminate. destruct o; try discriminate.
  destruct (p a) eqn:P, (q b) eqn:Q; try discriminate. intros [= <- <-]. eauto.
Qed.
Lemma m_apint_inv e d : m_apint e = Some d -> exists t l, e = Cst t l /\ splat l = Some d.
Proof. destruct e; cbn; try discriminate. eauto. Qed.

(** A sum of two extended values and a constant. *)
Inductive sum_form (W : nat) (n : Z) (a b : expr) (t : ty) (l : list Z) : expr -> Prop :=
| SF_r : sum_form W n a b t l
    (Bin Add (Cast ZExt (Vec W (2 * n)) a) (Bin Add (Cast ZExt (Vec W (2 * n)) b) (Cst t l)))
| SF_m : sum_form W n a b t l
    (Bin Add (Bin Add (Cast ZExt (Vec W (2 * n)) a) (Cst t l)) (Cast ZExt (Vec W (2 * n)) b))
| SF_l : sum_form W n a b t l
    (Bin Add (Bin Add (Cast ZExt (Vec W (2 * n)) a) (Cast ZExt (Vec W (2 * n)) b)) (Cst t l)).

Lemma m_ext_inv T n e a : m_cast T ZExt n (2 * n) m_value e = Some a ->
  e = Cast ZExt (Vec (width T) (2 * n)) a /\ ty_of T a = Vec (width T) n.
Proof. intros H. apply m_cast_inv in H as [x [-> [H [= ->]]]]. auto. Qed.

Lemma sum_and_one_inv T n e a b d : sum_and_one (m_cast T ZExt n (2 * n) m_value) e = Some (a, b, d) ->
  exists t l, sum_form (width T) n a b t l e /\ splat l = Some d /\
    ty_of T a = Vec (width T) n /\ ty_of T b = Vec (width T) n.
Proof.
  unfold sum_and_one, m_or.
  destruct (m_add (m_cast T ZExt n (2 * n) m_value) (m_add (m_cast T ZExt n (2 * n) m_value) m_apint) e)
    as [[a0 [b0 d0]]|] eqn:E1.
  { intros [= -> -> ->]. apply m_add_inv in E1 as [x [y [-> [E1 E2]]]].
    apply m_add_inv in E2 as [z [w [-> [E2 E3]]]]. apply m_ext_inv in E1 as [-> E1], E2 as [-> E2].
    apply m_apint_inv in E3 as [t [l [-> E3]]]. exists t, l. repeat split; auto. constructor. }
  destruct (m_add (m_add (m_cast T ZExt n (2 * n) m_value) m_apint) (m_cast T ZExt n (2 * n) m_value) e)
    as [[[a0 d0] b0]|] eqn:E2.
  { intros [= -> -> ->]. apply m_add_inv in E2 as [x [y [-> [E2 E3]]]].
    apply m_add_inv in E2 as [z [w [-> [E2 E4]]]]. apply m_ext_inv in E2 as [-> E2], E3 as [-> E3].
    apply m_apint_inv in E4 as [t [l [-> E4]]]. exists t, l. repeat split; auto. constructor. }
  destruct (m_add (m_add (m_cast T ZExt n (2 * n) m_value) (m_cast T ZExt n (2 * n) m_value)) m_apint e)
    as [[[a0 b0] d0]|] eqn:E3; [|discriminate].
  intros [= -> -> ->]. apply m_add_inv in E3 as [x [y [-> [E3 E4]]]].
  apply m_add_inv in E3 as [z [w [-> [E3 E5]]]]. apply m_ext_inv in E3 as [-> E3], E5 as [-> E5].
  apply m_apint_inv in E4 as [t [l [-> E4]]]. exists t, l. repeat split; auto. constructor.
Qed.

(** What is replaced, and by what. *)
Definition avg_form (T : target) (e r : expr) : Prop :=
  exists n f a b t l d o s t' l' c,
    (n = 8 /\ f = AvgUpU8 \/ n = 16 /\ f = AvgUpU16) /\ kind T = Pavg /\
    r = Avg f a b /\ e = Cast Trunc (Vec (width T) n) (Bin o s (Cst t' l')) /\
    ty_of T s = Vec (width T) (2 * n) /\
    sum_form (width T) n a b t l s /\ splat l = Some d /\ d < 2 /\
    ty_of T a = Vec (width T) n /\ ty_of T b = Vec (width T) n /\
    splat l' = Some c /\ c <> 0 /\ (o = UDiv /\ c < 4 \/ o = LShr /\ c < 2).

Lemma get_intrinsic_inv T f a b r : get_intrinsic T f a b = Some r ->
  kind T = Pavg /\ (f = AvgUpU8 \/ f = AvgUpU16) /\ r = Avg f a b.
Proof.
  unfold get_intrinsic, has_intrinsic. destruct (kind T), f; try discriminate; intros [= <-]; auto.
Qed.

Lemma match_up_inv T n f e r : (n = 8 /\ f = AvgUpU8 \/ n = 16 /\ f = AvgUpU16) ->
  match_up T m_udiv2 ZExt n f e = Some r -> avg_form T e r.
Proof.
  intros Hn. unfold match_up. destruct (m_cast T Trunc _ _ _ e) as [[[a b] d]|] eqn:E; [|discriminate].
  apply m_cast_inv in E as [x [-> [Ex E]]].
  apply m_udiv2_inv in E as [o [s [t' [l' [c [-> [E1 [E2 [E3 E4]]]]]]]]].
  apply sum_and_one_inv in E3 as [t [l [F [F1 [F2 F3]]]]].
  unfold isIntN. destruct (Z.ltb_spec d (2 ^ 1)); [|discriminate]. intros G.
  apply get_intrinsic_inv in G as [K [_ ->]].
  exists n, f, a, b, t, l, d, o, s, t', l', c. repeat split; auto.
Qed.

Lemma match_up_none T d2 x n f e : (f = AvgUpS8 \/ f = AvgUpS16) -> match_up T d2 x n f e = None.
Proof.
  unfold match_up. intros H. destruct (m_cast _ _ _ _ _ _) as [[[a b] d]|]; [|reflexivity].
  destruct (isIntN 1 d); [|reflexivity]. unfold get_intrinsic, has_intrinsic.
  destruct (kind T), H as [-> | ->]; reflexivity.
Qed.
Lemma match_down_none T d2 x n f e : (f <> AvgUpU8 /\ f <> AvgUpU16) -> match_down T d2 x n f e = None.
Proof.
  unfold match_down. intros H. destruct (m_cast _ _ _ _ _ _) as [[a b]|]; [|reflexivity].
  unfold get_intrinsic, has_intrinsic. destruct (kind T), f; try reflexivity; destruct H; congruence.
Qed.

Lemma average_inv T e r : average T e = Some r -> avg_form T e r.
Proof.
  unfold average, orelse.
  rewrite !match_down_none by (split; discriminate).
  rewrite !(match_up_none T m_sdiv2) by auto.
  destruct (match_up T m_udiv2 ZExt 8 AvgUpU8 e) eqn:E1.
  { intros [= <-]. apply match_up_inv in E1; auto. }
  destruct (match_up T m_udiv2 ZExt 16 AvgUpU16 e) eqn:E2; [|discriminate].
  intros [= <-]. apply match_up_inv in E2; auto.
Qed.

Lemma average_cast T e r : average T e = Some r -> exists t x, e = Cast Trunc t x.
Proof. intros H. apply average_inv in H as [n [f [a [b [t [l [d [o [s [t' [l' [c H]]]]]]]]]]]]. destruct H as [_ [_ [_ [-> _]]]]. eauto. Qed.
Lemma average_avg T e r : average T e = Some r -> exists f a b, r = Avg f a b.
Proof. intros H. apply average_inv in H as [n [f [a [b [t [l [d [o [s [t' [l' [c H]]]]]]]]]]]]. destruct H as [_ [_ [-> _]]]. eauto. Qed.

(** The pass leaves constants and operators in place. *)
Lemma replace_other T e : (forall t x, e <> Cast Trunc t x) -> replace T e = e.
Proof.
  intros H. unfold replace. destruct (average T e) eqn:E; [|reflexivity].
  apply average_cast in E as [t [x E]]. now apply H in E.
Qed.
Lemma peephole_bin T o a b : peephole T (Bin o a b) = Bin o (peephole T a) (peephole T b).
Proof. cbn [peephole]. apply replace_other. discriminate. Qed.
Lemma peephole_zext T t a : peephole T (Cast ZExt t a) = Cast ZExt t (peephole T a).
Proof. cbn [peephole]. apply replace_other. discriminate. Qed.
Lemma peephole_cst T t l : peephole T (Cst t l) = Cst t l.
Proof. cbn [peephole]. apply replace_other. discriminate. Qed.

Lemma replace_cases T e : replace T e = e \/ exists f a b, replace T e = Avg f a b.
Proof.
  unfold replace. destruct (average T e) eqn:E; [|now left]. right. now apply average_avg in E.
Qed.

Lemma peephole_bin_inv T e o a b : peephole T e = Bin o a b ->
  exists a0 b0, e = Bin o a0 b0 /\ peephole T a0 = a /\ peephole T b0 = b.
Proof.
  destruct e; cbn [peephole];
    match goal with |- replace T ?x = _ -> _ => destruct (replace_cases T x) as [-> | [? [? [? ->]]]] end;
    try discriminate.
  intros [= -> <- <-]. eauto.
Qed.
Lemma peephole_cst_inv T e t l : peephole T e = Cst t l -> e = Cst t l.
Proof.
  destruct e; cbn [peephole];
    match goal with |- replace T ?x = _ -> _ => destruct (replace_cases T x) as [-> | [? [? [? ->]]]] end;
    try discriminate. auto.
Qed.

(** ** The arithmetic *)
Lemma pavg_half n x y c : 0 < n -> in_u n x -> in_u n y -> c = (x + y + 1) / 2 -> wrapu n c = pavg n x y.
Proof.
  intros Hn Hx Hy ->. unfold pavg. unfold in_u in *. rewrite (wrapu_id (n + 1)).
  - rewrite Z.shiftr_div_pow2 by lia. reflexivity.
  - unfold in_u. replace (n + 1) with (Z.succ n) by lia. rewrite Z.pow_succ_r by lia. lia.
Qed.

Lemma nth_splat l c i : splat l = Some c -> (i < length l)%nat -> nth i l 0 = c.
Proof.
  intros H Hi. apply splat_forall in H as [_ H]. rewrite Forall_forall in H. symmetry. apply H. now apply nth_In.
Qed.
Lemma splat_in_u n l c : splat l = Some c -> Forall (in_u n) l -> in_u n c.
Proof.
  intros H F. destruct l as [|x r]; [discriminate|]. cbn in H. destruct (forallb _ _); [|discriminate].
  injection H as <-. now inversion F.
Qed.
