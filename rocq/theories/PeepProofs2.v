(** Proofs about PeepModel: the passes keep results. *)
From Coq Require Import ZArith List Bool Lia.
From Verif Require Import Bits SatModel LanesModel PeepModel PeepSpec PeepProofs.
Import ListNotations.
Local Open Scope Z_scope.

Lemma sum_form_ty T W n a b t l s : sum_form W n a b t l s -> ty_of T s = Vec W (2 * n).
Proof. intros []; reflexivity. Qed.

(** The value of the sum. *)
Lemma sum_form_lane T rho amt W n a b t l s i v d : sum_form W n a b t l s -> 0 < n -> 2 <= n ->
  typed T s -> splat l = Some d -> 0 <= d < 2 -> (i < W)%nat ->
  ty_of T a = Vec W n -> ty_of T b = Vec W n ->
  lane T rho amt s i = Some v ->
  exists x y, lane T rho amt a i = Some x /\ lane T rho amt b i = Some y /\
    in_u n x /\ in_u n y /\ v = x + y + d.
Proof.
  intros F Hn Hn2 Ht Hs Hd Hi Ta Tb.
  assert (P : 2 ^ (2 * n) = 2 ^ n * 2 ^ n) by (rewrite <- Z.pow_add_r by lia; f_equal; lia).
  assert (Q : 4 <= 2 ^ n) by (change 4 with (2 ^ 2); apply Z.pow_le_mono_r; lia).
  assert (C : forall tc, tc = Vec W (2 * n) -> length l = W -> wrapu (bits tc) (nth i l 0) = d).
  { intros tc -> L. rewrite (nth_splat l d i Hs) by lia. apply wrapu_id. unfold in_u. cbn [bits]. nia. }
  assert (A : forall p q, 0 <= p -> 0 <= q -> p + q <= 2 * 2 ^ n -> wrapu (2 * n) (p + q) = p + q).
  { intros p q Hp Hq Hpq. apply wrapu_id. unfold in_u. nia. }
  destruct F; cbn [typed ty_of lane cast_lane bits lns] in *.
  - destruct Ht as [[Ha _] [[[Hb _] [Hc E2]] E1]].
    destruct (lane T rho amt a i) as [x|] eqn:Ex; [|discriminate].
    destruct (lane T rho amt b i) as [y|] eqn:Ey; [|discriminate]. cbn [bin_lane].
    pose proof (lane_range T rho amt a Ha i x Ex) as Rx. pose proof (lane_range T rho amt b Hb i y Ey) as Ry.
    rewrite Ta in Rx. rewrite Tb in Ry. cbn [bits] in *. subst t. destruct Hc as [_ [Hc _]].
    rewrite (C _ eq_refl Hc). unfold in_u in *. rewrite (A y d), A by lia. intros [= <-].
    exists x, y. repeat split; auto; lia.
  - destruct Ht as [[[Ha _] [Hc E2]] [[Hb _] E1]].
    destruct (lane T rho amt a i) as [x|] eqn:Ex; [|discriminate].
    destruct (lane T rho amt b i) as [y|] eqn:Ey; [|discriminate]. cbn [bin_lane].
    pose proof (lane_range T rho amt a Ha i x Ex) as Rx. pose proof (lane_range T rho amt b Hb i y Ey) as Ry.
    rewrite Ta in Rx. rewrite Tb in Ry. cbn [bits] in *. subst t. destruct Hc as [_ [Hc _]].
    rewrite (C _ eq_refl Hc). unfold in_u in *. rewrite (A x d), A by lia. intros [= <-].
    exists x, y. repeat split; auto; lia.
  - destruct Ht as [[[Ha _] [[Hb _] E2]] [Hc E1]].
    destruct (lane T rho amt a i) as [x|] eqn:Ex; [|discriminate].
    destruct (lane T rho amt b i) as [y|] eqn:Ey; [|discriminate]. cbn [bin_lane].
    pose proof (lane_range T rho amt a Ha i x Ex) as Rx. pose proof (lane_range T rho amt b Hb i y Ey) as Ry.
    rewrite Ta in Rx. rewrite Tb in Ry. cbn [bits] in *. subst t. destruct Hc as [_ [Hc _]].
    rewrite (C _ eq_refl Hc). unfold in_u in *. rewrite (A x y), A by lia. intros [= <-].
    exists x, y. repeat split; auto; lia.
Qed.

Lemma sum_form_operands T W n a b t l s : sum_form W n a b t l s -> typed T s -> typed T a /\ typed T b.
Proof. intros []; cbn [typed]; tauto. Qed.

(** Replacing one instruction. *)
Lemma avg_keeps T n f a b t l d o s t' l' c :
  (n = 8 /\ f = AvgUpU8 \/ n = 16 /\ f = AvgUpU16) -> kind T = Pavg ->
  typed T (Cast Trunc (Vec (width T) n) (Bin o s (Cst t' l'))) ->
  sum_form (width T) n a b t l s -> splat l = Some d -> d = 1 ->
  ty_of T a = Vec (width T) n -> ty_of T b = Vec (width T) n ->
  splat l' = Some c -> (o = UDiv /\ c = 2 \/ o = LShr /\ c = 1) ->
  keeps T (Cast Trunc (Vec (width T) n) (Bin o s (Cst t' l'))) (Avg f a b) /\ typed T (Avg f a b).
Proof.
  intros Hn K Ht F Hd -> Ta Tb Hc Ho. cbn [typed ty_of] in Ht.
  destruct Ht as [[Hs [[_ [Hl _]] Et]] _]. rewrite (sum_form_ty T _ _ _ _ _ _ _ F) in Et. subst t'. cbn [bits lns] in *.
  assert (0 < n /\ 2 <= n /\ avg_bits f = n) as [Hn1 [Hn2 Hf]] by (destruct Hn as [[-> ->]|[-> ->]]; cbn; lia).
  assert (P : 2 ^ (2 * n) = 2 ^ n * 2 ^ n) by (rewrite <- Z.pow_add_r by lia; f_equal; lia).
  assert (Q : 4 <= 2 ^ n) by (change 4 with (2 ^ 2); apply Z.pow_le_mono_r; lia).
  split.
  - intros rho amt i v Hi. cbn [lane].
    destruct (lane T rho amt s i) as [w|] eqn:Es; [|discriminate].
    destruct (sum_form_lane T rho amt _ _ _ _ _ _ _ i w 1 F) as [x [y [Ex [Ey [Rx [Ry ->]]]]]]; auto; try lia.
    rewrite Ex, Ey. cbn [bits]. rewrite (nth_splat l' c i Hc) by lia.
    rewrite (sum_form_ty T _ _ _ _ _ _ _ F). cbn [ty_of cast_lane bits]. unfold avg_lane. rewrite K, Hf.
    assert (V : wrapu (2 * n) c = c) by (apply wrapu_id; unfold in_u; destruct Ho as [[_ ->]|[_ ->]]; nia).
    rewrite V. intros H.
    assert (G : v = pavg n x y).
    { destruct Ho as [[-> ->]|[-> ->]]; cbn [bin_lane] in H.
      - cbn [Z.eqb] in H. injection H as <-. now apply pavg_half.
      - assert (1 <? 2 * n = true) as W by lia. rewrite W in H. injection H as <-.
        rewrite Z.shiftr_div_pow2 by lia. now apply pavg_half. }
    rewrite G. now destruct Hn as [[-> ->]|[-> ->]].
  - cbn [typed]. destruct (sum_form_operands T _ _ _ _ _ _ _ F Hs). rewrite Hf. auto.
Qed.

Lemma no_thirds_sub e a : In a (parts e) -> (forall b, In b (parts a) -> In b (parts e)) ->
  no_thirds e -> no_thirds a.
Proof. unfold no_thirds. intros _ H N x y. destruct (N x y) as [A B]. split; auto. Qed.

Lemma parts_self e : In e (parts e).
Proof. destruct e; cbn [parts]; now left. Qed.

Ltac sub_thirds :=
  match goal with N : no_thirds ?e |- no_thirds ?a =>
    apply (no_thirds_sub e a); [cbn [parts]; right; auto using in_or_app, parts_self
                               |intros; cbn [parts]; right; auto using in_or_app|exact N] end.

(** The constants of a matched expression are those of the program. *)
Lemma matched_constants T a o s t' l' n x y t l d c : no_thirds a -> peephole T a = Bin o s (Cst t' l') ->
  sum_form (width T) n x y t l s -> splat l = Some d -> splat l' = Some c ->
  d <> 0 /\ (o = UDiv -> c <> 1 /\ c <> 3).
Proof.
  intros N E F Hd Hc. apply peephole_bin_inv in E as [s0 [c0 [-> [Es Ec]]]].
  apply peephole_cst_inv in Ec as ->.
  assert (L : forall u m k, splat m = Some k -> all_lanes k (Cst u m)).
  { intros u m k H. apply splat_forall in H as [H1 H2]. exists u, m. auto. }
  split.
  - intros ->. pose proof (L t l 0 Hd) as Z0. destruct F.
    + apply peephole_bin_inv in Es as [p [q [-> [Ep Eq]]]].
      apply peephole_bin_inv in Eq as [q1 [q2 [-> [_ Eq2]]]]. apply peephole_cst_inv in Eq2 as ->.
      destruct (N q1 (Cst t l)) as [_ H]. apply H; [|exact Z0].
      cbn [parts app]. do 2 right. apply in_or_app. left. apply in_or_app. right. now left.
    + apply peephole_bin_inv in Es as [p [q [-> [Ep Eq]]]].
      apply peephole_bin_inv in Ep as [q1 [q2 [-> [_ Eq2]]]]. apply peephole_cst_inv in Eq2 as ->.
      destruct (N q1 (Cst t l)) as [_ H]. apply H; [|exact Z0].
      cbn [parts app]. do 2 right. now left.
    + apply peephole_bin_inv in Es as [p [q [-> [Ep Eq]]]]. apply peephole_cst_inv in Eq as ->.
      destruct (N p (Cst t l)) as [_ H]. apply H; [|exact Z0].
      cbn [parts app]. right. now left.
  - intros ->. destruct (N s0 (Cst t' l')) as [H _].
    destruct (H (or_introl eq_refl)) as [H1 H3]. split; intros ->; [apply H1|apply H3]; now apply L.
Qed.

Lemma peephole_ok T e : typed T e -> no_thirds e ->
  typed T (peephole T e) /\ ty_of T (peephole T e) = ty_of T e /\ keeps T e (peephole T e).
Proof.
  induction e as [t i|t l|c t a IH|o a IHa b IHb|f a IHa b IHb|s v IH n|s v IH i|v IH idx];
    intros Ht N; cbn [typed] in Ht.
  - cbn [peephole]. rewrite replace_other by discriminate. repeat split; auto using keeps_refl.
  - rewrite peephole_cst. repeat split; try tauto. apply keeps_refl.
  - destruct Ht as [Ha [E1 E2]]. assert (Na : no_thirds a) by sub_thirds.
    destruct (IH Ha Na) as [Ha' [Ta' Ka]].
    assert (Ht' : typed T (Cast c t (peephole T a))) by (cbn [typed]; rewrite Ta'; auto).
    assert (Kc : keeps T (Cast c t a) (Cast c t (peephole T a))) by now apply keeps_cast.
    cbn [peephole]. unfold replace. destruct (average T (Cast c t (peephole T a))) as [r|] eqn:E; [|auto].
    apply average_inv in E as [n [f [x [y [u [l [d [o [s [t' [l' [k H]]]]]]]]]]]].
    destruct H as [Hn [K [-> [E [Es [F [Hd [Hd2 [Tx [Ty [Hc [Hc0 Ho]]]]]]]]]]]].
    injection E as -> -> E.
    assert (Hs : typed T (Bin o s (Cst t' l'))) by (rewrite <- E; exact Ha').
    destruct (matched_constants T a o s t' l' n x y u l d k Na E F Hd Hc) as [D1 C1].
    assert (Hd' : in_u (2 * n) d /\ in_u (2 * n) k).
    { cbn [typed ty_of] in Hs. destruct Hs as [Hs [[_ [_ Hf]] Et]]. rewrite Es in Et. subst t'. split.
      - assert (G : exists tc, ty_of T s = tc /\ typed T (Cst tc l)).
        { exists (ty_of T s). split; [reflexivity|]. destruct F; cbn [typed ty_of] in *.
          - destruct Hs as [_ [[_ [Hl Q]] _]]. now rewrite Q.
          - destruct Hs as [[_ [Hl Q]] _]. now rewrite Q.
          - destruct Hs as [_ [Hl Q]]. now rewrite Q. }
        destruct G as [tc [<- G]]. rewrite Es in G. destruct G as [_ [_ G]]. now apply (splat_in_u _ l).
      - now apply (splat_in_u _ l'). }
    unfold in_u in Hd'.
    assert (d = 1) as -> by lia.
    assert (Ho' : o = UDiv /\ k = 2 \/ o = LShr /\ k = 1).
    { destruct Ho as [[-> Q]|[-> Q]]; [left|right]; (split; [reflexivity|]).
      - destruct (C1 eq_refl). lia.
      - lia. }
    destruct (avg_keeps T n f x y u l 1 o s t' l' k Hn K) as [G1 G2]; auto.
    { rewrite <- E. exact Ht'. }
    split; [exact G2|]. split.
    + cbn [ty_of]. destruct Hn as [[-> ->]|[-> ->]]; reflexivity.
    + eapply keeps_trans; [exact Kc|]. rewrite E. exact G1.
  - destruct Ht as [Ha [Hb E]].
    destruct (IHa Ha ltac:(sub_thirds)) as [Ha' [Ta Ka]]. destruct (IHb Hb ltac:(sub_thirds)) as [Hb' [Tb Kb]].
    rewrite peephole_bin. cbn [typed ty_of]. rewrite Ta, Tb. repeat split; auto. now apply keeps_bin.
  - destruct Ht as [Ha [Hb [E F]]].
    destruct (IHa Ha ltac:(sub_thirds)) as [Ha' [Ta Ka]]. destruct (IHb Hb ltac:(sub_thirds)) as [Hb' [Tb Kb]].
    cbn [peephole]. rewrite replace_other by discriminate. cbn [typed ty_of]. rewrite Ta, Tb.
    repeat split; auto. now apply keeps_avg.
  - destruct Ht as [Ha [E F]]. destruct (IH Ha ltac:(sub_thirds)) as [Ha' [Ta Ka]].
    cbn [peephole]. rewrite replace_other by discriminate. cbn [typed ty_of]. rewrite Ta.
    repeat split; auto; try lia. now apply keeps_shift.
  - destruct Ht as [Ha E]. destruct (IH Ha ltac:(sub_thirds)) as [Ha' [Ta Ka]].
    cbn [peephole]. rewrite replace_other by discriminate. cbn [typed ty_of]. rewrite Ta.
    repeat split; auto. now apply keeps_shift_by.
  - destruct Ht as [Ha [E F]]. destruct (IH Ha ltac:(sub_thirds)) as [Ha' [Ta Ka]].
    cbn [peephole]. rewrite replace_other by discriminate. cbn [typed ty_of]. rewrite Ta.
    repeat split; auto. now apply keeps_shuffle.
Qed.

(** Targets without the instructions. *)
Lemma average_none T e : kind T <> Pavg -> average T e = None.
Proof.
  intros K. destruct (average T e) eqn:E; [|reflexivity].
  apply average_inv in E as [n [f [x [y [u [l [d [o [s [t' [l' [k H]]]]]]]]]]]]. destruct H as [_ [H _]]. congruence.
Qed.
Lemma peephole_none T e : kind T <> Pavg -> peephole T e = e.
Proof.
  intros K. induction e; cbn [peephole]; unfold replace; rewrite average_none by assumption; congruence.
Qed.

(** ** Constant shifts *)
Lemma all_some_nth {A} (l : list (option A)) r : all_some l = Some r ->
  length r = length l /\ forall i d e, (i < length l)%nat -> nth i l d = Some (nth i r e).
Proof.
  revert r. induction l as [|[x|] l IH]; cbn; intros r; try discriminate.
  - intros [= <-]. split; [reflexivity|]. cbn. lia.
  - destruct (all_some l) as [y|]; [|discriminate]. intros [= <-]. destruct (IH y eq_refl) as [L H].
    split; [cbn; congruence|]. intros [|i] d e Hi; cbn; [reflexivity|]. apply H. lia.
Qed.
Lemma all_some_total {A} (l : list (option A)) : (forall x, In x l -> x <> None) -> exists r, all_some l = Some r.
Proof.
  induction l as [|[x|] l IH]; cbn; intros H.
  - eauto.
  - destruct IH as [r ->]; eauto.
  - destruct (H None (or_introl eq_refl) eq_refl).
Qed.

Lemma shuffle_index_some W n i : - 2 ^ 31 <= n -> n + Z.of_nat W <= 2 ^ 31 -> (i < W)%nat ->
  shuffle_index W n i = Some (if (0 <=? Z.of_nat i + n) && (Z.of_nat i + n <? Z.of_nat W)
                              then Z.of_nat i + n else Z.of_nat W).
Proof.
  intros H1 H2 Hi. unfold shuffle_index.
  destruct (Z.ltb_spec (Z.of_nat i + n) (- 2 ^ 31)); [lia|].
  destruct (Z.leb_spec (2 ^ 31) (Z.of_nat i + n)); [lia|]. cbn [orb]. f_equal.
  destruct (Z.ltb_spec (Z.of_nat i + n) 0), (Z.leb_spec 0 (Z.of_nat i + n)); try lia; cbn [andb].
  - now rewrite (proj2 (Z.leb_le _ _) (Z.le_refl _)).
  - destruct (Z.leb_spec (Z.of_nat W) (Z.of_nat i + n)), (Z.ltb_spec (Z.of_nat i + n) (Z.of_nat W)); lia.
Qed.

Lemma shuffle_vals_ok W n : - 2 ^ 31 <= n -> n + Z.of_nat W <= 2 ^ 31 ->
  exists idx, shuffle_vals W n = Some idx /\ length idx = W /\
    forall i, (i < W)%nat -> nth i idx (-1) = if (0 <=? Z.of_nat i + n) && (Z.of_nat i + n <? Z.of_nat W)
                              then Z.of_nat i + n else Z.of_nat W.
Proof.
  intros H1 H2. unfold shuffle_vals.
  destruct (all_some_total (map (shuffle_index W n) (seq 0 W))) as [r Hr].
  { intros x Hx. apply in_map_iff in Hx as [i [<- Hi]]. apply in_seq in Hi.
    rewrite shuffle_index_some by lia. discriminate. }
  exists r. split; [exact Hr|]. apply all_some_nth in Hr as [L H]. rewrite map_length, seq_length in *.
  split; [exact L|]. intros i Hi. specialize (H i (shuffle_index W n 0) (-1) Hi).
  rewrite map_nth, seq_nth in H by lia. cbn [Nat.add] in H. rewrite shuffle_index_some in H by lia. congruence.
Qed.

(** Both implementations of shift() give, where they give a value at all, the lane that is [n] further. *)
Lemma wraps_id n x : 0 < n -> in_s n x -> wraps n x = x.
Proof.
  unfold wraps, in_s. intros Hn H. rewrite Z.mod_small; [lia|]. rewrite (pow2_split n) by lia. lia.
Qed.

Lemma shift_lane_ok T n v i l x : (width T <= 64)%nat -> (l < width T)%nat -> - 2 ^ 31 <= i -> i + Z.of_nat (width T) <= 2 ^ 31 ->
  shift_lane T n v i l = Some x ->
  (if (0 <=? Z.of_nat l + i) && (Z.of_nat l + i <? Z.of_nat (width T))
   then v (Z.to_nat (Z.of_nat l + i)) else Some 0) = Some x.
Proof.
  intros HW Hl H1 H2. unfold shift_lane. destruct (via_shuffle T n).
  - unfold shift_via_shuffle, shuffle, extract. cbv zeta.
    rewrite wraps_id by (unfold in_s; cbn; lia).
    destruct (_ && _) eqn:E; auto.
  - unfold shift_mem, extract. cbv zeta.
    destruct (Z.eq_dec (i + Z.of_nat (width T)) (2 ^ 31)) as [Eq|Ne].
    { rewrite Eq. replace (wraps 32 (2 ^ 31)) with (- 2 ^ 31) by reflexivity.
      destruct (Z.leb_spec 0 (- 2 ^ 31 + Z.of_nat l)); [|discriminate].
      exfalso. lia. }
    rewrite wraps_id by (unfold in_s; cbn; lia).
    set (s := i + _ + _). destruct ((0 <=? s) && (s <? Z.of_nat (3 * width T))) eqn:E; [|discriminate].
    destruct (Nat.ltb_spec (Z.to_nat s) (width T)); cbn [join].
    + intros [= <-]. now replace ((0 <=? Z.of_nat l + i) && (Z.of_nat l + i <? Z.of_nat (width T))) with false by lia.
    + destruct (Nat.ltb_spec (Z.to_nat s) (2 * width T)).
      * intros Hv. replace ((0 <=? Z.of_nat l + i) && (Z.of_nat l + i <? Z.of_nat (width T))) with true by lia.
        rewrite <- Hv. f_equal. lia.
      * intros [= <-]. now replace ((0 <=? Z.of_nat l + i) && (Z.of_nat l + i <? Z.of_nat (width T))) with false by lia.
Qed.

Lemma no_overflow_sub T e a : (forall b, In b (parts a) -> In b (parts e)) -> no_overflow T e -> no_overflow T a.
Proof. unfold no_overflow. intros H N s v n Hi. eauto. Qed.
Ltac sub_over :=
  match goal with N : no_overflow ?T ?e |- no_overflow ?T ?a =>
    apply (no_overflow_sub T e a); [intros; cbn [parts]; right; auto using in_or_app|exact N] end.

Lemma shifts_ok T e : (width T <= 64)%nat -> typed T e -> no_overflow T e ->
  exists e', shifts T e = Some e' /\ typed T e' /\ ty_of T e' = ty_of T e /\ keeps T e e'.
Proof.
  intros HW.
  induction e as [t i|t l|c t a IH|o a IHa b IHb|f a IHa b IHb|s v IH n|s v IH i|v IH idx];
    intros Ht N; cbn [typed shifts] in *.
  - eexists. repeat split; auto using keeps_refl.
  - eexists. split; [reflexivity|]. repeat split; try tauto. apply keeps_refl.
  - destruct Ht as [Ha E]. destruct (IH Ha ltac:(sub_over)) as [a' [-> [Ha' [Ta Ka]]]].
    eexists. split; [reflexivity|]. cbn [typed ty_of]. rewrite Ta. repeat split; auto; try tauto. now apply keeps_cast.
  - destruct Ht as [Ha [Hb E]]. destruct (IHa Ha ltac:(sub_over)) as [a' [-> [Ha' [Ta Ka]]]].
    destruct (IHb Hb ltac:(sub_over)) as [b' [-> [Hb' [Tb Kb]]]].
    eexists. split; [reflexivity|]. cbn [typed ty_of]. rewrite Ta, Tb. repeat split; auto. now apply keeps_bin.
  - destruct Ht as [Ha [Hb [E F]]]. destruct (IHa Ha ltac:(sub_over)) as [a' [-> [Ha' [Ta Ka]]]].
    destruct (IHb Hb ltac:(sub_over)) as [b' [-> [Hb' [Tb Kb]]]].
    eexists. split; [reflexivity|]. cbn [typed ty_of]. rewrite Ta, Tb. repeat split; auto. now apply keeps_avg.
  - destruct Ht as [Hv [E F]]. destruct (IH Hv ltac:(sub_over)) as [v' [-> [Hv' [Tv Kv]]]].
    pose proof (N s v n (or_introl eq_refl)) as O.
    destruct (replaced s).
    + destruct (shuffle_vals_ok (width T) n) as [idx [-> [L H]]]; [lia|lia|].
      eexists. split; [reflexivity|]. cbn [typed ty_of]. rewrite Tv. repeat split; auto.
      intros rho amt l x Hl. cbn [lane]. intros Q. apply shift_lane_ok in Q; [|lia..].
      cbv zeta. rewrite (H l Hl).
      destruct ((0 <=? Z.of_nat l + n) && (Z.of_nat l + n <? Z.of_nat (width T))) eqn:B.
      * rewrite B. apply Kv; [lia|exact Q].
      * injection Q as <-.
        destruct (Z.ltb_spec (Z.of_nat (width T)) (Z.of_nat (width T))); [lia|]. rewrite andb_false_r.
        rewrite (proj2 (Z.leb_le _ _) (Z.le_refl _)).
        destruct (Z.ltb_spec (Z.of_nat (width T)) (2 * Z.of_nat (width T))); [reflexivity|lia].
    + eexists. split; [reflexivity|]. cbn [typed ty_of]. rewrite Tv. repeat split; auto; try lia. now apply keeps_shift.
  - destruct Ht as [Ha E]. destruct (IH Ha ltac:(sub_over)) as [a' [-> [Ha' [Ta Ka]]]].
    eexists. split; [reflexivity|]. cbn [typed ty_of]. rewrite Ta. repeat split; auto. now apply keeps_shift_by.
  - destruct Ht as [Ha [E F]]. destruct (IH Ha ltac:(sub_over)) as [a' [-> [Ha' [Ta Ka]]]].
    eexists. split; [reflexivity|]. cbn [typed ty_of]. rewrite Ta. repeat split; auto. now apply keeps_shuffle.
Qed.
