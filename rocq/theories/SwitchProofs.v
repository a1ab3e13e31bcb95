From Coq Require Import ZArith List Bool Lia.
From Verif Require Import SwitchModel SwitchSpec.
Import ListNotations.
Local Open Scope Z_scope.

Lemma sext_mod n v : 0 < n -> exists k, sext n v = v + k * 2 ^ n.
Proof.
  intros N. unfold sext. assert (P : 0 < 2 ^ n) by (apply Z.pow_pos_nonneg; lia). pose proof (Z.div_mod v (2 ^ n) ltac:(lia)). destruct (v mod 2 ^ n <? 2 ^ (n - 1)); [exists (- (v / 2 ^ n))|exists (- (v / 2 ^ n) - 1)]; lia.
Qed.
Lemma sext_range n v : 0 < n -> - 2 ^ (n - 1) <= sext n v < 2 ^ (n - 1).
Proof.
  intros N. unfold sext. assert (E : 2 ^ n = 2 * 2 ^ (n - 1)) by (rewrite <- Z.pow_succ_r by lia; f_equal; lia). assert (P : 0 < 2 ^ n) by (apply Z.pow_pos_nonneg; lia). pose proof (Z.mod_pos_bound v (2 ^ n) P). destruct (Z.ltb_spec (v mod 2 ^ n) (2 ^ (n - 1))); lia.
Qed.
Lemma sext_eq n a b : 0 < n -> sext n a = sext n b <-> exists k, a - b = k * 2 ^ n.
Proof.
  intros N. destruct (sext_mod n a N) as (i & A). destruct (sext_mod n b N) as (j & B). split.
  - intros E. exists (j - i). lia.
  - intros (k0 & E). pose proof (sext_range n a N). pose proof (sext_range n b N). assert (Q : 2 ^ n = 2 * 2 ^ (n - 1)) by (rewrite <- Z.pow_succ_r by lia; f_equal; lia).
    assert (D : sext n a - sext n b = (k0 + i - j) * 2 ^ n) by lia. assert (k0 + i - j = 0) by nia. lia.
Qed.
Lemma sext_id n v : 0 < n -> - 2 ^ (n - 1) <= v < 2 ^ (n - 1) -> sext n v = v.
Proof.
  intros N R. destruct (sext_mod n v N) as (k0 & E). pose proof (sext_range n v N). assert (Q : 2 ^ n = 2 * 2 ^ (n - 1)) by (rewrite <- Z.pow_succ_r by lia; f_equal; lia). assert (k0 = 0) by nia. lia.
Qed.

(** What a label's value is *)
Lemma zext_id t v : integer t -> unsigned t = true -> has_type t v -> zext (bits_of t) v = v.
Proof.
  intros I0 U H. unfold zext. apply Z.mod_small. destruct t; cbn in *; try discriminate; try lia.
Qed.
Lemma mod32 v : exists k, v - sext 32 v = k * 2 ^ 32.
Proof. destruct (sext_mod 32 v ltac:(lia)) as (i & ->). exists (- i). lia. Qed.
Lemma sext_signed n v : In n [8; 16; 32; 64] -> - 2 ^ (n - 1) <= v < 2 ^ (n - 1) -> sext n v = v.
Proof. intros I0. apply sext_id. cbn in I0. lia. Qed.
Lemma case_value_low t v w : integer t -> has_type t v -> case_value t v = Some w -> (exists k, v - w = k * 2 ^ 32) /\ - 2 ^ 31 <= w < 2 ^ 31.
Proof.
  intros I0 H E. assert (W : w = sext 32 v).
  { unfold case_value in E. destruct t as [|n|n| |]; cbv zeta in E.
    5: discriminate.
    all: match type of E with (if ?c then _ else _) = _ => destruct c; [|discriminate] end; injection E as <-; cbn [unsigned].
    - pose proof (zext_id _ v I0 eq_refl H) as Z0. cbn [bits_of] in *. now rewrite Z0.
    - cbn [bits_of]. cbn in H. now rewrite (sext_signed n v).
    - pose proof (zext_id _ v I0 eq_refl H) as Z0. cbn [bits_of] in *. now rewrite Z0.
    - pose proof (zext_id _ v I0 eq_refl H) as Z0. cbn [bits_of] in *. now rewrite Z0. }
  subst w. split; [apply mod32|apply (sext_range 32); lia].
Qed.
(** Values that an int can hold are their own; the others are accepted only from unsigned types *)
Lemma case_value_small t v w : integer t -> has_type t v -> v < 2 ^ 31 -> case_value t v = Some w -> w = v.
Proof.
  intros I0 H S0 E. unfold case_value in E. destruct t as [|n|n| |]; cbv zeta in E.
  5: discriminate.
  all: match type of E with (if ?c then _ else _) = _ => destruct c eqn:F; [|discriminate] end; injection E as <-; cbn [unsigned].
  - pose proof (zext_id _ v I0 eq_refl H) as Z0. cbn [bits_of] in *. rewrite Z0. apply sext_id; [lia|]. cbn in H. change (2 ^ (32 - 1)) with (2 ^ 31). lia.
  - cbn [bits_of] in *. cbn in H. rewrite (sext_signed n v) in * by auto. now apply Z.eqb_eq in F.
  - pose proof (zext_id _ v I0 eq_refl H) as Z0. cbn [bits_of] in *. rewrite Z0. apply sext_id; [lia|]. cbn in H. change (2 ^ (32 - 1)) with (2 ^ 31). lia.
  - pose proof (zext_id _ v I0 eq_refl H) as Z0. cbn [bits_of] in *. rewrite Z0. apply sext_id; [lia|]. cbn in H. change (2 ^ (32 - 1)) with (2 ^ 31). lia.
Qed.

Lemma case_value_total t v : integer t -> has_type t v -> - 2 ^ 31 <= v < 2 ^ 31 -> exists w, case_value t v = Some w.
Proof.
  intros I0 H R. unfold case_value. destruct t as [|n|n| |]; cbv zeta.
  5: now destruct H.
  all: match goal with |- exists w, (if ?c then _ else _) = _ => assert (X : c = true); [|rewrite X; eauto] end; apply Z.eqb_eq; apply sext_id; try lia; cbn [bits_of]; change (2 ^ (32 - 1)) with (2 ^ 31).
  - pose proof (sext_range 1 v ltac:(lia)). change (2 ^ (1 - 1)) with 1 in *. lia.
  - cbn in H. rewrite (sext_signed n v); auto.
  - cbn in I0. destruct I0 as [<-|[<-|[<-|[<-|[]]]]].
    + pose proof (sext_range 8 v ltac:(lia)). change (2 ^ (8 - 1)) with 128 in *. lia.
    + pose proof (sext_range 16 v ltac:(lia)). change (2 ^ (16 - 1)) with 32768 in *. lia.
    + apply (sext_range 32); lia.
    + rewrite sext_id; [exact R|lia|]. change (2 ^ (64 - 1)) with 9223372036854775808. lia.
  - apply (sext_range 32); lia.
Qed.

(** ** The labels collected *)
Definition same_label (l m : label) : bool := match l, m with Value v, Value w => v =? w | Otherwise, Otherwise => true | _, _ => false end.
Lemma same_label_iff l m : same_label l m = true <-> l = m.
Proof. destruct l, m; cbn; split; try discriminate; auto; [intros E; apply Z.eqb_eq in E; now subst|intros E; injection E as ->; apply Z.eqb_refl]. Qed.
Lemma seen l ls : existsb (same_label l) ls = true <-> In l ls.
Proof.
  rewrite existsb_exists. split; [intros (m & I0 & E); apply same_label_iff in E; now subst|]. intros I0. exists l. split; auto. now apply same_label_iff.
Qed.
Section Stm_ind.
  Variable P : stm -> Prop.
  Hypotheses (HO : P Other) (HC : forall t v s, P s -> P (Case t v s)) (HD : forall s, P s -> P (Default s)) (HS : forall l, Forall P l -> P (Sub l)) (HW : forall t s, P s -> P (Switch t s)).
  Fixpoint stm_ind' (s : stm) : P s :=
    match s with
    | Other => HO
    | Case t v b => HC t v b (stm_ind' b)
    | Default b => HD b (stm_ind' b)
    | Sub l => HS l ((fix all (l : list stm) : Forall P l := match l with [] => Forall_nil P | b :: r => Forall_cons b (stm_ind' b) (all r) end) l)
    | Switch t b => HW t b (stm_ind' b)
    end.
End Stm_ind.

Lemma source_belongs s o : In o (source s) <-> belongs o s.
Proof.
  split.
  - revert o. induction s as [|t v s IH|s IH|l IH|t s IH] using stm_ind'; intros o; cbn [source].
    + intros [].
    + intros [<-|I0]; [constructor|constructor; auto].
    + intros [<-|I0]; [constructor|constructor; auto].
    + rewrite in_flat_map. intros (b & I0 & J). rewrite Forall_forall in IH. apply (b_in_sub o b l I0). now apply IH.
    + intros [].
  - induction 1; cbn; auto. apply in_flat_map. eauto.
Qed.
Definition translate (o : option (ty * Z)) : option label :=
  match o with None => Some Otherwise | Some (t, v) => option_map Value (case_value t v) end.
(** Collecting succeeds exactly if all constants are good and no two labels agree *)
Lemma collect_err s ls : snd (collect s (ls, true)) = true.
Proof.
  revert ls. induction s as [|t v s IH|s IH|l IH|t s IH] using stm_ind'; intros ls; cbn [collect]; auto.
  - destruct (case_value t v); [|reflexivity]. unfold add_label. destruct (existsb _ ls); apply IH.
  - unfold add_label. destruct (existsb _ ls); apply IH.
  - revert ls. induction IH as [|b r B R IHr]; intros ls; cbn [fold_left]; auto. specialize (B ls). destruct (collect b (ls, true)) as (ls' & e'). cbn in B. subst. apply IHr.
Qed.
Lemma collect_ok s ls ls' : collect s (ls, false) = (ls', false) -> exists new, ls' = ls ++ new /\ map Some new = map translate (source s) /\ (NoDup ls -> NoDup ls').
Proof.
  revert ls ls'. induction s as [|t v s IH|s IH|l IH|t s IH] using stm_ind'; intros ls ls'; cbn [collect source].
  - intros E. injection E as <-. exists []. rewrite app_nil_r. auto.
  - destruct (case_value t v) as [x|] eqn:C; [|discriminate]. unfold add_label. change (existsb _ ls) with (existsb (same_label (Value x)) ls). destruct (existsb (same_label (Value x)) ls) eqn:S0.
    + intros E. pose proof (collect_err s ls) as X. rewrite E in X. discriminate.
    + intros E. destruct (IH _ _ E) as (new & -> & M & N). exists (Value x :: new). rewrite <- app_assoc. split; [reflexivity|]. split; [cbn [map]; rewrite M; cbn [translate]; rewrite C; reflexivity|].
      intros D. rewrite <- app_assoc in N. cbn [app] in N. apply N. assert (~ In (Value x) ls) by (rewrite <- seen; congruence). apply NoDup_rev in D. rewrite <- (rev_involutive (ls ++ [Value x])). apply NoDup_rev. rewrite rev_app_distr. cbn. constructor; auto. rewrite <- in_rev. auto.
  - unfold add_label. change (existsb _ ls) with (existsb (same_label Otherwise) ls). destruct (existsb (same_label Otherwise) ls) eqn:S0.
    + intros E. pose proof (collect_err s ls) as X. rewrite E in X. discriminate.
    + intros E. destruct (IH _ _ E) as (new & -> & M & N). exists (Otherwise :: new). rewrite <- app_assoc. split; [reflexivity|]. split; [cbn [map]; rewrite M; reflexivity|].
      intros D. rewrite <- app_assoc in N. cbn [app] in N. apply N. assert (~ In Otherwise ls) by (rewrite <- seen; congruence). apply NoDup_rev in D. rewrite <- (rev_involutive (ls ++ [Otherwise])). apply NoDup_rev. rewrite rev_app_distr. cbn. constructor; auto. rewrite <- in_rev. auto.
  - revert ls ls'. induction IH as [|b r B R IHr]; intros ls ls'; cbn [fold_left flat_map].
    + intros E. injection E as <-. exists []. rewrite app_nil_r. auto.
    + destruct (collect b (ls, false)) as (l1 & [|]) eqn:C.
      * intros E. pose proof (collect_err (Sub r) l1) as X. cbn [collect] in X. rewrite E in X. discriminate.
      * intros E. destruct (B _ _ C) as (n1 & -> & M1 & N1). destruct (IHr _ _ E) as (n2 & -> & M2 & N2). exists (n1 ++ n2). rewrite <- app_assoc. split; auto. split; [now rewrite !map_app, M1, M2|]. intros D. rewrite app_assoc. auto.
  - intros E. injection E as <-. exists []. rewrite app_nil_r. auto.
Qed.
Lemma nodup_left (a b : list label) : NoDup (a ++ b) -> NoDup a.
Proof. induction a as [|x a IH]; intros D; constructor; inversion D; subst; auto. rewrite in_app_iff in *. tauto. Qed.
Lemma collect_complete s ls new : map Some new = map translate (source s) -> NoDup (ls ++ new) -> collect s (ls, false) = (ls ++ new, false).
Proof.
  revert ls new. induction s as [|t v s IH|s IH|l IH|t s IH] using stm_ind'; intros ls new; cbn [collect source].
  - intros M _. destruct new; [now rewrite app_nil_r|discriminate].
  - cbn [map translate]. destruct (case_value t v) as [x|]; cbn [option_map]; [|destruct new; discriminate]. intros M D. destruct new as [|n new]; [discriminate|]. injection M as -> M. unfold add_label. change (existsb _ ls) with (existsb (same_label (Value x)) ls).
    assert (S0 : existsb (same_label (Value x)) ls = false). { destruct (existsb (same_label (Value x)) ls) eqn:S0; auto. apply seen in S0. apply NoDup_remove_2 in D. exfalso. apply D. apply in_or_app. auto. }
    rewrite S0. rewrite (IH _ new M); rewrite <- app_assoc; auto.
  - cbn [map translate]. intros M D. destruct new as [|n new]; [discriminate|]. injection M as -> M. unfold add_label. change (existsb _ ls) with (existsb (same_label Otherwise) ls).
    assert (S0 : existsb (same_label Otherwise) ls = false). { destruct (existsb (same_label Otherwise) ls) eqn:S0; auto. apply seen in S0. apply NoDup_remove_2 in D. exfalso. apply D. apply in_or_app. auto. }
    rewrite S0. rewrite (IH _ new M); rewrite <- app_assoc; auto.
  - revert ls new. induction IH as [|b r B R IHr]; intros ls new; cbn [fold_left flat_map].
    + intros M _. destruct new; [now rewrite app_nil_r|discriminate].
    + rewrite map_app. intros M D. destruct (map_eq_app _ _ _ _ M) as (n1 & n2 & -> & M1 & M2). rewrite app_assoc in D. rewrite (B ls n1 M1).
      * rewrite (IHr (ls ++ n1) n2 M2 D). now rewrite app_assoc.
      * exact (nodup_left _ _ D).
  - intros M _. destruct new; [now rewrite app_nil_r|discriminate].
Qed.

(** ** Which label is taken *)
Lemma stands_translate s new : map Some new = map translate (source s) ->
  (forall l, In l new -> exists o, belongs o s /\ stands_for l o) /\ (forall o, belongs o s -> exists l, In l new /\ stands_for l o).
Proof.
  intros M. assert (T : forall l o, translate o = Some l <-> stands_for l o).
  { intros [w|] [(t & v)|]; cbn; try (split; [discriminate|tauto]); try tauto.
    - destruct (case_value t v); cbn; split; try discriminate; intros E; injection E as ->; auto.
    - destruct (case_value t v); cbn; split; try discriminate; tauto. }
  split.
  - intros l I0. assert (J : In (Some l) (map translate (source s))) by (rewrite <- M; now apply in_map). apply in_map_iff in J as (o & E & J). exists o. split; [now apply source_belongs|now apply T].
  - intros o B. apply source_belongs in B. assert (J : In (translate o) (map Some new)) by (rewrite M; now apply in_map). apply in_map_iff in J as (l & E & J). exists l. split; auto. now apply T.
Qed.
Lemma operand_same t x w : matches t x (Value w) = true <-> same t x w.
Proof.
  unfold matches, operand, same. rewrite Z.eqb_eq. change (promoted_bits t) with (operand_bits t).
  assert (P : 0 < operand_bits t) by (unfold operand_bits; destruct t as [|n|n| |]; try lia; destruct n as [|p|p]; try lia; repeat (destruct p as [p|p|]; try lia)).
  rewrite sext_eq by exact P. split; intros (k0 & E); exists (- k0); lia.
Qed.
Lemma narrow_low t x v w : promoted_bits t = 32 -> (exists k, v - w = k * 2 ^ 32) -> same t x w <-> same t x v.
Proof. unfold same. intros -> (k0 & E). split; intros (j & F); [exists (j - k0)|exists (j + k0)]; lia. Qed.

Lemma find_jump t x ls : jump t x ls = match find (matches t x) ls with Some l => Some l | None => if existsb (same_label Otherwise) ls then Some Otherwise else None end.
Proof.
  unfold jump. destruct (find (matches t x) ls); auto. induction ls as [|[v|] r IH]; [reflexivity|exact IH|reflexivity].
Qed.
(** The general statement: the compiler's values of the labels match as those of the source do *)
Lemma chosen t s x : snd (collect s ([], false)) = false -> typed s ->
  (forall tv v w, belongs (Some (tv, v)) s -> case_value tv v = Some w -> same t x w <-> same t x v) ->
  (forall tv v, belongs (Some (tv, v)) s -> same t x v ->
     exists w, case_value tv v = Some w /\ jump t x (labels s) = Some (Value w) /\ (forall l, In l (labels s) -> turned_on t x (labels s) l = true <-> l = Value w)) /\
  ((forall tv v, belongs (Some (tv, v)) s -> ~ same t x v) ->
     (belongs None s -> jump t x (labels s) = Some Otherwise) /\ (~ belongs None s -> jump t x (labels s) = None) /\
     (forall l, In l (labels s) -> turned_on t x (labels s) l = true <-> l = Otherwise)).
Proof.
  intros E T K. unfold labels. destruct (collect s ([], false)) as (ls & e) eqn:C. cbn in E. subst e. destruct (collect_ok s [] ls C) as (new & -> & M & _). cbn [fst app]. destruct (stands_translate s new M) as (A & B). clear C M.
  assert (R : forall w, In (Value w) new -> - 2 ^ 31 <= w < 2 ^ 31).
  { intros w I0. destruct (A _ I0) as ([(tv & v)|] & Bl & S0); [|destruct S0]. destruct (T tv v Bl) as (It & H). now destruct (case_value_low tv v w It H S0). }
  assert (U : forall w w', In (Value w) new -> In (Value w') new -> matches t x (Value w) = true -> matches t x (Value w') = true -> w = w').
  { intros w w' I1 I2 M1 M2. apply operand_same in M1 as (a & Ea), M2 as (b & Eb). pose proof (R w I1). pose proof (R w' I2).
    assert (Q : promoted_bits t = 32 \/ promoted_bits t = 64) by (unfold promoted_bits; destruct t as [|n|n| |]; auto; destruct n as [|p|p]; auto; repeat (destruct p as [p|p|]; auto)).
    destruct Q as [Q|Q]; rewrite Q in *; [assert (w - w' = (b - a) * 2 ^ 32) by lia|assert (w - w' = (b - a) * 2 ^ 64) by lia]; assert (b - a = 0) by lia; lia. }
  split.
  - intros tv v Bl S0. destruct (B _ Bl) as (l & I0 & St). destruct l as [w|]; [|destruct St]. cbn in St. exists w. split; auto. assert (Mw : matches t x (Value w) = true) by (apply operand_same; now apply (K tv v w)).
    split.
    + rewrite find_jump. destruct (find (matches t x) new) as [l|] eqn:F; [|apply (find_none _ _ F) in I0; congruence]. apply find_some in F as (If & Mf). destruct l as [w'|]; [|discriminate]. now rewrite (U w w').
    + intros [w'|] Il; cbn [turned_on].
      * split; [intros Mf; now rewrite (U w w')|intros X; injection X as ->; exact Mw].
      * split; [|discriminate]. intros X. rewrite forallb_forall in X. specialize (X _ I0). cbn beta iota in X. rewrite Mw in X. discriminate.
  - intros N. assert (NM : forall w, In (Value w) new -> matches t x (Value w) = false).
    { intros w I0. destruct (matches t x (Value w)) eqn:Mw; auto. apply operand_same in Mw. destruct (A _ I0) as ([(tv & v)|] & Bl & St); [|destruct St]. exfalso. apply (N tv v Bl). now apply (K tv v w). }
    assert (F : find (matches t x) new = None). { destruct (find (matches t x) new) as [l|] eqn:F; auto. apply find_some in F as (If & Mf). destruct l as [w|]; [rewrite NM in Mf by auto; discriminate|discriminate]. }
    rewrite find_jump, F. split; [|split].
    + intros Bl. destruct (B _ Bl) as ([w|] & I0 & St); [destruct St|]. apply seen in I0. now rewrite I0.
    + intros Bl. destruct (existsb (same_label Otherwise) new) eqn:X; auto. apply seen in X. destruct (A _ X) as ([(tv & v)|] & Y & St); [destruct St|contradiction].
    + intros [w|] Il; cbn [turned_on]; [rewrite NM by auto; split; discriminate|]. split; auto. intros _. apply forallb_forall. intros [w|] I0; auto. now rewrite NM.
Qed.

Lemma switch_compiles inside t s : compiles inside (Switch t s) = true -> snd (collect s ([], false)) = false.
Proof. cbn [compiles]. intros E. apply andb_true_iff in E as (E & _). now apply negb_true_iff. Qed.
