(** One lane of a conversion. *)
From Coq Require Import ZArith Lia List Bool SpecFloat.
Import ListNotations.
From Verif Require Import Bits FoldModel FoldSpec FoldProofs CastModel CastSpec.
Open Scope Z_scope.

Lemma width_size t n : width t = Some n -> size_of t = Some n.
Proof. destruct t; cbn; congruence. Qed.
Lemma width_none t : user_type t -> width t = None -> size_of t = None.
Proof. unfold user_type. destruct t; cbn; congruence. Qed.
Lemma format_same t : format_of t = float_format t.
Proof. destruct t; reflexivity. Qed.
Lemma size_pos t n : width t = Some n -> 0 < n.
Proof. destruct t; cbn; intros [= <-]; lia. Qed.

Lemma signed_back k z : 0 < k -> in_range k true z -> wraps k (z mod 2 ^ k) = z.
Proof. intros K R. change (z mod 2 ^ k) with (wrapu k z). rewrite wraps_wrapu by auto. apply wraps_id; auto. Qed.
Lemma unsigned_back k z : in_range k false z -> z mod 2 ^ k = z.
Proof. intros R. cbn in R. apply Z.mod_small; auto. Qed.
Lemma mod_mod_le n k z : 0 <= n <= k -> (z mod 2 ^ k) mod 2 ^ n = z mod 2 ^ n.
Proof.
  intros L. assert (E : 2 ^ k = 2 ^ n * 2 ^ (k - n)) by (rewrite <- Z.pow_add_r by lia; f_equal; lia).
  pose proof (pow2_pos n ltac:(lia)). pose proof (pow2_pos (k - n) ltac:(lia)).
  rewrite (Z.div_mod z (2 ^ k)) at 2 by lia. rewrite E at 2. rewrite <- Z.mul_assoc, Z.add_comm, Z.mul_comm.
  rewrite Z.mod_add by lia. auto.
Qed.

Lemma in_range_cast n (s : bool) z : 0 < n -> (if s then wraps n z =? z else wrapu n z =? z) = true <-> in_range n s z.
Proof.
  intros N. destruct s; rewrite Z.eqb_eq; split; intros H.
  - rewrite <- H. apply wraps_range; auto.
  - apply wraps_id; auto.
  - rewrite <- H. apply wrapu_range; lia.
  - apply wrapu_id; auto.
Qed.

(** integers to integers *)
Definition int_op (k n : Z) (s : bool) (o : op) : Prop :=
  (n = k /\ o = ONone) \/ (n < k /\ o = OTrunc) \/ (k < n /\ s = true /\ o = OSExt) \/ (k < n /\ s = false /\ o = OZExt).
Lemma int_int from to k n o z : 0 < k -> width to = Some n -> in_range k (is_signed from) z ->
  int_op k n (is_signed from) o -> run_op o to (IV k (z mod 2 ^ k)) = Some (IV n (z mod 2 ^ n)).
Proof.
  intros K N R O. pose proof (size_pos _ _ N). unfold run_op.
  destruct O as [(-> & ->)|[(L & ->)|[(L & S & ->)|(L & S & ->)]]]; rewrite ?(width_size _ _ N); auto.
  - cbn [i_trunc]. destruct (Z.ltb_spec n k); [|lia]. unfold wrapu. rewrite mod_mod_le by lia. auto.
  - cbn [i_sext]. destruct (Z.ltb_spec k n); [|lia]. rewrite S in R. rewrite signed_back by auto. auto.
  - cbn [i_zext]. destruct (Z.ltb_spec k n); [|lia]. rewrite S in R. rewrite (unsigned_back k z R). cbn in R.
    pose proof (Z.pow_lt_mono_r 2 k n ltac:(lia) ltac:(lia) ltac:(lia)). rewrite (Z.mod_small z (2 ^ n)) by lia. auto.
Qed.
Lemma int_choice from to k n : width from = Some k -> width to = Some n -> user_type from -> user_type to ->
  exists o, choose to from = Some o /\ int_op k n (is_signed from) o.
Proof.
  unfold user_type, int_op.
  destruct from; cbn [width]; intros [= <-]; destruct to; cbn [width]; intros [= <-]; intros UF UT; try congruence;
    eexists; (split; [reflexivity|]); cbn [is_signed]; intuition (try lia; try discriminate; auto).
Qed.

Lemma float_choice from to f n : float_format from = Some f -> width to = Some n -> user_type to ->
  choose to from = Some (if is_signed to then OFPToSI else OFPToUI).
Proof. unfold user_type. destruct from; cbn; intros [= <-]; destruct to; cbn; intros [= <-] U; congruence. Qed.
Lemma int_float_choice from to k f : width from = Some k -> float_format to = Some f -> user_type from ->
  choose to from = Some (if is_signed from then OSIToFP else OUIToFP).
Proof. unfold user_type. destruct from; cbn; intros [= <-]; destruct to; cbn; intros [= <-] U; congruence. Qed.
Lemma float_float_choice from to f g : float_format from = Some f -> float_format to = Some g ->
  (choose to from = Some OFPCast \/ choose to from = Some ONone /\ f = g).
Proof. destruct from; cbn; intros [= <-]; destruct to; cbn; intros [= <-]; auto. Qed.
Lemma fty_eqb_refl f : fty_eqb f f = true.
Proof. unfold fty_eqb. rewrite !Z.eqb_refl. auto. Qed.
Lemma fconvert_same f x : fconvert f f x = x.
Proof. unfold fconvert. rewrite fty_eqb_refl. auto. Qed.

(** the type of a value decides the type's class *)
Lemma rep_class n t s v : represents n t s v ->
  match v with
  | CB _ => t = BBool
  | CI _ => exists k, width t = Some k
  | CF _ => exists f, float_format t = Some f
  end.
Proof. destruct v; cbn; [tauto| |]; intros (k & H & _); eauto. Qed.

Lemma to_class t : user_type t -> t = BBool \/ (exists n, width t = Some n /\ t <> BBool) \/ (exists f, float_format t = Some f /\ t <> BBool).
Proof.
  unfold user_type. destruct t; intros U; try congruence; cbn; [auto| | | | | | | | | | |];
    (right; left; eexists; split; [reflexivity|discriminate]) || (right; right; eexists; split; [reflexivity|discriminate]).
Qed.

(** a conversion to bool *)
Definition truth (v : cv) : bool :=
  match v with CB b => b | CI z => negb (z =? 0) | CF x => match x with S754_zero _ => false | _ => true end end.
Lemma bool_case from s v : user_type from -> represents 1 from s v ->
  exists o, choose BBool from = Some o /\ run_op o BBool s = Some (bit (truth v)).
Proof.
  intros U R. destruct v as [b|z|x]; cbn [represents] in R; cbn [truth].
  - destruct R as (-> & ->). exists ONone. split; [auto|]. destruct b; reflexivity.
  - destruct R as (k & K & I & ->). pose proof (size_pos _ _ K) as P. exists OICmpNe.
    split; [destruct from; try discriminate; try congruence; reflexivity|]. cbn [run_op i_ne0].
    do 3 f_equal. pose proof (pow2_pos k ltac:(lia)).
    destruct (Z.eqb_spec (z mod 2 ^ k) 0), (Z.eqb_spec z 0); auto.
    + exfalso. destruct (is_signed from).
      * pose proof (signed_back k z P I) as B. rewrite e in B. rewrite wraps_id in B by (auto; unfold in_s; pose proof (pow2_pos (k - 1) ltac:(lia)); lia). lia.
      * pose proof (unsigned_back k z I). lia.
    + subst z. rewrite Z.mod_0_l in n by lia. lia.
  - destruct R as (f & F & ->). exists OFCmpUne. split; [destruct from; try discriminate; reflexivity|].
    cbn [run_op i_une0]. destruct x as [[]|[]| |[] m e]; reflexivity.
Qed.
Lemma bool_value from n s v w : represents n from s v -> converts from BBool v w -> w = CB (truth v).
Proof.
  intros R C. inversion C; subst; cbn [truth]; auto; try discriminate.
  apply rep_class in R. destruct w; auto; destruct R; discriminate.
Qed.

(** other conversions *)
Lemma lane_case from to s v : user_type from -> user_type to -> to <> BBool -> represents 1 from s v ->
  exists o s', choose to from = Some o /\ run_op o to s = Some s' /\ forall n w, converts from to v w -> represents n to s' w.
Proof.
  intros UF UT NB R. pose proof (rep_class _ _ _ _ R) as CL.
  destruct (to_class to UT) as [?|[(n & N & _)|(f & F & _)]]; [congruence| |].
  - (* to an integer *)
    pose proof (size_pos _ _ N) as P. destruct v as [b|z|x]; cbn [represents] in R.
    + destruct R as (-> & ->). exists OZExt, (IV n (if b then 1 else 0)).
      split; [destruct to; try discriminate; try congruence; reflexivity|]. split.
      * unfold run_op. rewrite (width_size _ _ N). cbn [i_zext]. assert (1 < n) by (destruct to; try discriminate; try congruence; cbn in N; injection N as <-; lia).
        destruct (Z.ltb_spec 1 n); [|lia]. destruct b; reflexivity.
      * intros m w C. inversion C; subst; try congruence.
        -- cbn [represents]. exists n. assert (B : 1 < 2 ^ n /\ 1 < 2 ^ (n - 1)) by
             (destruct to; try discriminate; try congruence; cbn in N; injection N as <-; split; reflexivity).
           split; [auto|]. split; [destruct b, (is_signed to); cbn; lia|]. rewrite Z.mod_small by (destruct b; lia). auto.
        -- destruct to; discriminate.
    + destruct R as (k & K & I & ->). destruct (int_choice from to k n K N UF UT) as (o & O & IO).
      exists o, (IV n (z mod 2 ^ n)). split; [auto|]. split; [eapply int_int; eauto using size_pos|].
      intros m w C. inversion C; subst; try congruence.
      * rewrite N in K. injection K as <-. exists n. auto.
      * match goal with H : width to = Some ?x |- _ => rewrite H in N; injection N as -> end.
        exists n. split; [auto|]. split; [auto|]. f_equal. rewrite Z.mod_add; auto. pose proof (pow2_pos n ltac:(lia)). lia.
      * destruct to; discriminate.
    + destruct R as (f & F & ->). exists (if is_signed to then OFPToSI else OFPToUI).
      exists (match trunc x with Some z => if (if is_signed to then wraps n z =? z else wrapu n z =? z) then IV n (z mod 2 ^ n) else Poison | None => Poison end).
      split; [eapply float_choice; eauto|]. split.
      * unfold run_op. rewrite (width_size _ _ N). destruct (is_signed to); cbn [i_fptosi i_fptoui]; f_equal; destruct (trunc x) as [z|]; auto.
        destruct (Z.eqb_spec (wrapu n z) z) as [E|E]; auto. unfold wrapu in E. congruence.
      * intros m w C. inversion C; subst; try congruence; try (destruct to; discriminate); try (destruct from; discriminate).
        -- match goal with H : width to = Some ?x |- _ => rewrite H in N; injection N as -> end.
           match goal with H : toward_zero _ _ |- _ => apply trunc_spec in H; rewrite H end.
           match goal with H : in_range _ _ _ |- _ => pose proof (proj2 (in_range_cast _ _ _ P) H) as G; rewrite G end.
           exists n. auto.
  - (* to a floating-point type *)
    assert (NS : width to = None) by (destruct to; try discriminate; auto).
    destruct v as [b|z|x]; cbn [represents] in R.
    + destruct R as (-> & ->). exists OUIToFP, (FV f (of_int f (if b then 1 else 0))).
      split; [destruct to; try discriminate; try congruence; reflexivity|]. split.
      * unfold run_op. rewrite ?(width_none _ UT NS), format_same, F. cbn [i_uitofp]. destruct b; reflexivity.
      * intros m w C. inversion C; subst; try congruence. match goal with H : float_format to = Some ?x |- _ => rewrite H in F; injection F as -> end.
        exists f. auto.
    + destruct R as (k & K & I & ->). exists (if is_signed from then OSIToFP else OUIToFP), (FV f (of_int f z)).
      split; [eapply int_float_choice; eauto|]. split.
      * unfold run_op. rewrite ?(width_none _ UT NS), format_same, F. pose proof (size_pos _ _ K). destruct (is_signed from); cbn [i_sitofp i_uitofp].
        -- rewrite signed_back by auto. auto.
        -- rewrite unsigned_back by auto. auto.
      * intros m w C. inversion C; subst; try congruence. match goal with H : float_format to = Some ?x |- _ => rewrite H in F; injection F as -> end.
        exists f. auto.
    + destruct R as (g & G & ->). destruct (float_float_choice from to g f G F) as [E|(E & ->)].
      * exists OFPCast, (FV f (fconvert g f x)). split; [auto|]. split; [unfold run_op; rewrite ?(width_none _ UT NS), format_same, F; auto|].
        intros m w C. inversion C; subst; try congruence.
        -- rewrite G in F. injection F as <-. rewrite fconvert_same. exists g. auto.
        -- exists f. split; [auto|]. f_equal. congruence.
      * exists ONone, (FV f x). split; [auto|]. split; [auto|].
        intros m w C. inversion C; subst; try congruence.
        -- exists f. auto.
        -- exists f. split; [auto|]. match goal with H : float_format from = Some ?a, I : float_format to = Some ?b |- _ => rewrite H in G; injection G as ->; rewrite I in F; injection F as -> end.
           rewrite fconvert_same. auto.
Qed.

(** the forms of bool *)
Lemma mask_pos mb : mask_size mb -> 0 < mb.
Proof. unfold mask_size. cbn. lia. Qed.
Lemma mask_to_bit mb s v : mask_size mb -> represents mb BBool s v ->
  exists s', switch_mask mb 1 s = Some s' /\ represents 1 BBool s' v.
Proof.
  intros M R. destruct v as [b|z|x]; cbn [represents] in R; [|destruct R as (k & K & _); discriminate|destruct R as (k & K & _); discriminate].
  destruct R as (_ & ->). exists (bit b). split; [|destruct b; repeat split].
  unfold switch_mask. unfold mask_size in M; cbn in M. destruct b; repeat (destruct M as [<-|M]; [reflexivity|]); destruct M.
Qed.
Lemma bit_to_mask mb (b : bool) : mask_size mb -> switch_mask mb mb (bit b) = Some (IV mb (if b then 2 ^ mb - 1 else 0)).
Proof. unfold mask_size; cbn. intros M. destruct b; repeat (destruct M as [<-|M]; [reflexivity|]); destruct M. Qed.
Lemma mask_to_mask mb (b : bool) : mask_size mb ->
  switch_mask mb mb (IV mb (if b then 2 ^ mb - 1 else 0)) = Some (IV mb (if b then 2 ^ mb - 1 else 0)).
Proof. unfold mask_size; cbn. intros M. destruct b; repeat (destruct M as [<-|M]; [reflexivity|]); destruct M. Qed.
