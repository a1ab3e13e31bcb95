From Coq Require Import ZArith List Bool Lia.
From Verif Require Import DispatchModel DispatchSpec.
Import ListNotations.
Open Scope Z_scope.

Lemma mask_ok x m : (forall i, Z.testbit m i = true -> Z.testbit x i = true) <-> Z.land x m = m.
Proof.
  split.
  - intros H. apply Z.bits_inj'. intros i _. rewrite Z.land_spec. destruct (Z.testbit m i) eqn:E; [rewrite H; auto|apply andb_false_r].
  - intros H i E. rewrite <- H in E. rewrite Z.land_spec in E. apply andb_prop in E. tauto.
Qed.

Lemma bits_of m n i : 0 < m < 2 ^ n -> 0 <= n -> Z.testbit m i = true -> 0 <= i < n.
Proof.
  intros M N T. destruct (Z.lt_ge_cases i 0); [rewrite Z.testbit_neg_r in T; [discriminate|auto]|].
  split; auto. destruct (Z.lt_ge_cases i n); auto. rewrite Z.bits_above_log2 in T; [discriminate|lia|].
  apply Z.lt_le_trans with n; auto. apply Z.log2_lt_pow2; lia.
Qed.

Lemma os_avx_feature h : os_avx h = has_feature h F_OS_YMM.
Proof.
  unfold os_avx, has_feature. apply eq_true_iff_eq. rewrite Z.eqb_eq, <- mask_ok, andb_true_iff. split.
  - intros H. split; apply H; reflexivity.
  - intros (H1 & H2) i E. pose proof (bits_of 6 3 i ltac:(lia) ltac:(lia) E).
    assert (i = 0 \/ i = 1 \/ i = 2) as [->|[->| ->]] by lia; auto; discriminate.
Qed.
Lemma os_amx_feature h : os_amx h = has_feature h F_OS_TILE.
Proof.
  unfold os_amx, has_feature. apply eq_true_iff_eq. rewrite Z.eqb_eq, <- mask_ok, andb_true_iff. split.
  - intros H. split; apply H; reflexivity.
  - intros (H1 & H2) i E. pose proof (bits_of 393216 19 i ltac:(lia) ltac:(lia) E).
    destruct (Z.eq_dec i 17) as [->|]; auto. destruct (Z.eq_dec i 18) as [->|]; auto. exfalso.
    assert (A : forall j, In j (map Z.of_nat (seq 0 17)) -> Z.testbit 393216 j = false).
    { intros j. rewrite in_map_iff. intros (k & <- & K). apply in_seq in K.
      assert (L : forallb (fun k => negb (Z.testbit 393216 (Z.of_nat k))) (seq 0 17) = true) by reflexivity.
      rewrite forallb_forall in L. apply negb_true_iff. apply L. apply in_seq. lia. }
    rewrite A in E; [discriminate|]. apply in_map_iff. exists (Z.to_nat i). split; [lia|]. apply in_seq. lia.
Qed.
Lemma os_avx512_feature h : os_avx512 false h = has_feature h F_OS_ZMM.
Proof.
  unfold os_avx512, has_feature. apply eq_true_iff_eq. rewrite Z.eqb_eq, <- mask_ok, !andb_true_iff. split.
  - intros H. repeat split; apply H; reflexivity.
  - intros ((((H1 & H2) & H3) & H4) & H5) i E. pose proof (bits_of 230 8 i ltac:(lia) ltac:(lia) E).
    assert (i = 0 \/ i = 1 \/ i = 2 \/ i = 3 \/ i = 4 \/ i = 5 \/ i = 6 \/ i = 7) as [->|[->|[->|[->|[->|[->|[->| ->]]]]]]] by lia; auto; discriminate.
Qed.

Lemma sub1_bit (h : host) (g : regs -> Z) n : g no_regs = 0 ->
  bit (g (if 1 <=? eax (leaf7 h) then leaf7_1 h else no_regs)) n = (1 <=? eax (leaf7 h)) && Z.testbit (g (leaf7_1 h)) n.
Proof. intros Z0. destruct (1 <=? eax (leaf7 h)); auto. rewrite Z0. apply Z.testbit_0_l. Qed.

(** The model in terms of the features. *)
Definition isa_of (f : feature -> bool) : isa :=
  let below :=
    if f F_OSXSAVE && f F_AVX && f F_OS_YMM then
      if f F_AVXVNNI then AVX2VNNI
      else if f F_F16C && f F_RDRAND then (if f F_AVX2 then AVX2 else AVX11)
      else AVX
    else if f F_SSE42 then SSE42 else if f F_SSE41 then SSE41 else if f F_SSE2 then SSE2 else INVALID in
  if f F_OSXSAVE && f F_AVX2 && f F_AVX512F && f F_OS_ZMM then
    let skx := f F_AVX512DQ && f F_AVX512CD && f F_AVX512BW && f F_AVX512VL in
    let icl := skx && f F_VNNI && f F_VBMI2 && f F_GFNI && f F_VAES && f F_VPCLMULQDQ && f F_BITALG && f F_VPOPCNTDQ in
    let spr := icl && f F_BF16 && f F_AMXBF16 && f F_AMXTILE && f F_AMXINT8 && f F_AVXVNNI && f F_FP16 in
    let gnr := spr && f F_AMXFP16 && f F_PREFETCHI in
    let arl := icl && f F_AVXVNNIINT8 && f F_AVXVNNIINT16 && f F_AVXNECONVERT && f F_SHA512 && f F_SM3 && f F_SM4 && f F_AVXIFMA && f F_CMPCCXADD in
    let dmr := gnr && f F_AVX10_2 && f F_APX && f F_CMPCCXADD && f F_AVXNECONVERT && f F_AVXIFMA && f F_AVXVNNIINT8 && f F_AVXVNNIINT16 && f F_AMXCOMPLEX
                 && f F_SHA512 && f F_SM3 && f F_SM4 in
    let nvl := arl && f F_AVX10_2 && f F_APX && f F_FP16 in
    if f F_AVX10 && dmr then DMR_AVX10_2
    else if f F_AVX10 && nvl then NVL_AVX10_2
    else if gnr then GNR_AVX512
    else if spr then SPR_AVX512
    else if icl then ICL_AVX512
    else if skx then SKX_AVX512
    else if f F_AVX512PF && f F_AVX512ER && f F_AVX512CD then KNL_AVX512
    else below
  else below.

Lemma isa_features h : sane h -> get_x86_isa false h = isa_of (has_feature h).
Proof.
  intros S. unfold get_x86_isa. cbn zeta.
  rewrite !(sub1_bit h eax) by reflexivity. rewrite !(sub1_bit h edx) by reflexivity.
  rewrite os_avx_feature, os_avx512_feature.
  assert (L : (24 <=? eax (leaf1 h)) = true) by (apply Z.leb_le; apply (s_leaf24 h S)). rewrite L.
  change 255 with (Z.ones 8). rewrite Z.land_ones by lia. reflexivity.
Qed.

Lemma amx_features h : get_x86_has_amx false h = true <-> (forall f, In f amx_set -> has_feature h f = true).
Proof.
  unfold get_x86_has_amx. rewrite os_amx_feature, !andb_true_iff. cbn [In amx_set]. split.
  - intros (((A & B) & C) & D) f [<-|[<-|[<-|[<-|[]]]]]; auto.
  - intros H. pose proof (H F_OS_TILE). pose proof (H F_AMXBF16). pose proof (H F_AMXTILE). pose proof (H F_AMXINT8). cbn [has_feature] in *. unfold bit. intuition.
Qed.

Ltac ands := repeat match goal with
  | H : _ && _ = true |- _ => apply andb_prop in H; destruct H
  | H : _ /\ _ |- _ => destruct H
  end.

(** What the answer says about the machine. *)
Definition answer_needs (i : isa) : list feature :=
  match i with
  | AVX2VNNI => avx2_set ++ [F_AVXVNNI]
  | KNL_AVX512 => avx2_set ++ [F_OS_ZMM; F_AVX512F; F_AVX512CD; F_AVX512ER]
  | SPR_AVX512 => icl_set ++ [F_BF16; F_AVXVNNI; F_FP16; F_AMXBF16; F_AMXTILE; F_AMXINT8]
  | GNR_AVX512 => icl_set ++ [F_BF16; F_AVXVNNI; F_FP16; F_AMXBF16; F_AMXTILE; F_AMXINT8] ++ [F_AMXFP16; F_PREFETCHI]
  | DMR_AVX10_2 => icl_set ++ [F_BF16; F_AVXVNNI; F_FP16; F_AMXBF16; F_AMXTILE; F_AMXINT8] ++ [F_AMXFP16; F_PREFETCHI] ++ arl_features ++ avx10_2_features ++ [F_AMXCOMPLEX]
  | i => needs i
  end.

Lemma answer_sound h : sane h -> forall f, In f (answer_needs (get_x86_isa false h)) -> has_feature h f = true.
Proof.
  intros S. rewrite isa_features by auto. destruct S as [S1 S2 S3 S4 S5 S6 _ _]. unfold isa_of. cbn zeta.
  assert (B : forall f,
    In f (answer_needs (if has_feature h F_OSXSAVE && has_feature h F_AVX && has_feature h F_OS_YMM then
      if has_feature h F_AVXVNNI then AVX2VNNI
      else if has_feature h F_F16C && has_feature h F_RDRAND then (if has_feature h F_AVX2 then AVX2 else AVX11)
      else AVX
    else if has_feature h F_SSE42 then SSE42 else if has_feature h F_SSE41 then SSE41 else if has_feature h F_SSE2 then SSE2 else INVALID)) ->
    has_feature h f = true).
  { intros f.
    destruct (has_feature h F_OSXSAVE && has_feature h F_AVX && has_feature h F_OS_YMM) eqn:E.
    - ands. assert (has_feature h F_SSE42 = true) by auto. assert (has_feature h F_SSE41 = true) by auto. assert (has_feature h F_SSE2 = true) by auto.
      destruct (has_feature h F_AVXVNNI) eqn:E2.
      + assert (has_feature h F_AVX2 = true) as A2 by auto. destruct (S4 A2) as (_ & ? & ?).
        cbn [answer_needs In avx2_set avx_set app]. intros F. repeat (destruct F as [<-|F]; [assumption|]). destruct F.
      + destruct (has_feature h F_F16C && has_feature h F_RDRAND) eqn:E3; ands.
        * destruct (has_feature h F_AVX2) eqn:E4; cbn [answer_needs needs In avx2_set avx_set app]; intros F;
            repeat (destruct F as [<-|F]; [assumption|]); destruct F.
        * cbn [answer_needs needs In avx2_set avx_set app]; intros F; repeat (destruct F as [<-|F]; [assumption|]); destruct F.
    - destruct (has_feature h F_SSE42) eqn:E2; [|destruct (has_feature h F_SSE41) eqn:E3; [|destruct (has_feature h F_SSE2) eqn:E4]];
        cbn [answer_needs needs In]; intros F; repeat (destruct F as [<-|F]; [auto|]); destruct F. }
  destruct (has_feature h F_OSXSAVE && has_feature h F_AVX2 && has_feature h F_AVX512F && has_feature h F_OS_ZMM) eqn:E; [|exact B].
  ands. assert (A2 : has_feature h F_AVX2 = true) by auto. destruct (S4 A2) as (A1 & A3 & A4).
  assert (has_feature h F_SSE42 = true) by auto. assert (has_feature h F_SSE41 = true) by auto. assert (has_feature h F_SSE2 = true) by auto.
  assert (has_feature h F_OS_YMM = true) by auto.
  repeat match goal with |- forall f, In f (answer_needs (if ?c then _ else _)) -> _ =>
    let E := fresh "C" in destruct c eqn:E; [ands; clear B; cbn [answer_needs needs In icl_set skx_set avx2_set avx_set arl_features avx10_2_features app];
      intros f F; repeat (destruct F as [<-|F]; [assumption|]); destruct F|] end.
  exact B.
Qed.

(** Everything the machine supports is at or below the answer. *)
Lemma answer_complete h i : sane h -> has_feature h F_AVX512ER = false -> target_isa i -> supports h i ->
  num i <= num (get_x86_isa false h) /\ (requires_amx i = true -> get_x86_has_amx false h = true).
Proof.
  intros S ER (T1 & T2 & T3) SU. split.
  2: { intros R. apply amx_features. intros f F. apply SU. destruct i; try discriminate R; cbn [needs]; try unfold gnr_set; try unfold spr_set; rewrite !in_app_iff; tauto. }
  rewrite isa_features by auto. unfold supports in SU. destruct S as [S1 S2 S3 S4 S5 S6 _ _]. unfold isa_of. cbn zeta.
  rewrite ER, !andb_false_r. cbn [andb].
  assert (Q : Forall (fun f => has_feature h f = true) (needs i)) by (apply Forall_forall; auto).
  destruct i; try tauto; cbn [needs] in Q;
    repeat match goal with
    | Q : Forall _ (_ ++ _) |- _ => apply Forall_app in Q; destruct Q
    | Q : Forall _ gnr_set |- _ => unfold gnr_set in Q
    | Q : Forall _ spr_set |- _ => unfold spr_set in Q
    | Q : Forall _ icl_set |- _ => unfold icl_set in Q
    | Q : Forall _ skx_set |- _ => unfold skx_set in Q
    | Q : Forall _ avx2_set |- _ => unfold avx2_set in Q
    | Q : Forall _ avx_set |- _ => unfold avx_set in Q
    | Q : Forall _ amx_set |- _ => unfold amx_set in Q
    | Q : Forall _ arl_features |- _ => unfold arl_features in Q
    | Q : Forall _ avx10_2_features |- _ => unfold avx10_2_features in Q
    | Q : Forall _ (_ :: _) |- _ => apply Forall_cons_iff in Q; destruct Q
    end;
    repeat match goal with Q : has_feature h ?f = true |- context [has_feature h ?f] => rewrite Q end; cbn [andb];
    repeat match goal with |- context [if ?c then _ else _] => destruct c end; cbn [num]; lia.
Qed.

(** Soundness of the comparison of numbers. *)
Lemma below_sound h c : sane h -> target_isa c -> num c <= num (get_x86_isa false h) ->
  (requires_amx c = true -> get_x86_has_amx false h = true) ->
  c <> AVX2VNNI \/ has_feature h F_AVX512F = false -> supports h c.
Proof.
  intros S (T1 & T2 & T3) LE AM NV. pose proof (answer_sound h S) as A.
  assert (AX : requires_amx c = true -> forall f, In f amx_set -> has_feature h f = true) by (intros R; apply amx_features; auto).
  unfold supports. intros f F.
  destruct (get_x86_isa false h) eqn:E, c; cbn [num] in LE; try lia; try tauto;
    try (destruct NV as [NV|NV]; [tauto|]; exfalso; cbn [answer_needs needs In icl_set skx_set avx2_set avx_set arl_features avx10_2_features app] in A;
         rewrite (A F_AVX512F) in NV; [discriminate|tauto]);
    try (specialize (AX eq_refl)); clear LE NV AM T1 T2 T3 E;
    cbn [answer_needs needs icl_set skx_set avx2_set avx_set arl_features avx10_2_features spr_set gnr_set amx_set app] in *;
    cbn [In] in F;
    try (destruct (s_amx h S) as (B1 & B2 & B3 & B4); [apply A; cbn [In avx10_2_features]; tauto|apply AX; unfold amx_set; cbn [In]; tauto|]);
    repeat (destruct F as [<-|F]; [first [assumption | apply A; try unfold avx10_2_features; cbn [In]; repeat (first [left; reflexivity | right]); fail | apply AX; unfold amx_set; cbn [In]; repeat (first [left; reflexivity | right]); fail]|]);
    destruct F.
Qed.

Lemma find_first {A} (P : A -> bool) (v : A -> Z) l c i : find P l = Some c ->
  (forall l1 x l2, l = l1 ++ x :: l2 -> forall y, In y l2 -> v y < v x) -> In i l -> P i = true -> v i <= v c.
Proof.
  induction l as [|a l IH]; cbn [find]; [discriminate|]. intros E O I Pi. destruct (P a) eqn:Pa.
  - injection E as <-. destruct I as [->|I]; [lia|]. specialize (O [] a l eq_refl i I). lia.
  - destruct I as [->|I]; [congruence|]. apply IH; auto. intros l1 x l2 -> y Y. apply (O (a :: l1) x l2); auto.
Qed.

Lemma downward_ordered l1 x l2 : downward = l1 ++ x :: l2 -> forall y, In y l2 -> num y < num x.
Proof.
  assert (G : forall l : list isa, (fix ord l := match l with [] => true | x :: l => forallb (fun y => num y <? num x) l && ord l end) l = true ->
    forall l1 x l2, l = l1 ++ x :: l2 -> forall y, In y l2 -> num y < num x).
  { clear. induction l as [|a l IH]; intros H l1 x l2 E y Y; [destruct l1; discriminate|]. apply andb_prop in H as (H1 & H2).
    destruct l1 as [|b l1]; injection E as -> E.
    - subst l2. rewrite forallb_forall in H1. apply Z.ltb_lt. auto.
    - eapply IH; eauto. }
  intros E. apply (G downward) with (l1 := l1); auto.
Qed.

Lemma all_listed i : i <> INVALID -> In i downward.
Proof. destruct i; intros H; try tauto; cbn; tauto. Qed.

Lemma dispatch_supported h has c : sane h -> (forall i, has i = true -> target_isa i) -> dispatch false h has = Some c ->
  has c = true /\ (c <> AVX2VNNI \/ has_feature h F_AVX512F = false -> supports h c).
Proof.
  intros S T D. unfold dispatch in D. destruct (get_system_isa false h) as [s|] eqn:G; [|discriminate].
  apply find_some in D as (_ & P). apply andb_prop in P as (Hc & P). split; auto. apply andb_prop in P as (P1 & P2). apply Z.leb_le in P1.
  intros NV. apply below_sound; auto.
  - unfold get_system_isa in G. destruct (get_x86_isa false h); try discriminate; injection G as <-; cbn [num] in *; lia.
  - intros R. rewrite R in P2. auto.
Qed.

Lemma dispatch_best h has i : sane h -> has_feature h F_AVX512ER = false -> target_isa i -> has i = true -> supports h i ->
  exists c, dispatch false h has = Some c /\ num i <= num c.
Proof.
  intros S ER T Hi SU. destruct (answer_complete h i S ER T SU) as (LE & AM). unfold dispatch.
  assert (NK : get_x86_isa false h <> KNL_AVX512).
  { intros E. pose proof (answer_sound h S F_AVX512ER) as A. rewrite E in A. rewrite A in ER; [discriminate|]. cbn. tauto. }
  destruct T as (T1 & T2 & T3).
  assert (G : exists s, get_system_isa false h = Some s /\ num i <= num s).
  { unfold get_system_isa. destruct (get_x86_isa false h); try congruence; try (eexists; split; [reflexivity|exact LE]).
    - destruct i; cbn [num] in LE; try lia. tauto.
    - exists AVX. split; auto. destruct i; cbn [num] in *; try lia. tauto. }
  destruct G as (s & -> & LE2).
  assert (P : has i && compatible i s (get_x86_has_amx false h) = true).
  { rewrite Hi. unfold compatible. apply Z.leb_le in LE2. rewrite LE2. destruct (requires_amx i); auto. }
  unfold choose. destruct (find _ downward) as [c|] eqn:F.
  - exists c. split; auto. apply (find_first _ num _ _ i F downward_ordered (all_listed i T1) P).
  - exfalso. apply find_none with (x := i) in F; [congruence|]. apply all_listed; auto.
Qed.

(** macOS *)
Definition isa_mac (f : feature -> bool) : isa :=
  let below :=
    if f F_OSXSAVE && f F_AVX && f F_OS_YMM then
      if f F_AVXVNNI then AVX2VNNI
      else if f F_F16C && f F_RDRAND then (if f F_AVX2 then AVX2 else AVX11)
      else AVX
    else if f F_SSE42 then SSE42 else if f F_SSE41 then SSE41 else if f F_SSE2 then SSE2 else INVALID in
  if f F_OSXSAVE && f F_AVX2 && f F_AVX512F then
    if f F_AVX512DQ && f F_AVX512CD && f F_AVX512BW && f F_AVX512VL then SKX_AVX512
    else if f F_AVX512PF && f F_AVX512ER && f F_AVX512CD then KNL_AVX512
    else below
  else below.
Lemma isa_features_mac h : get_x86_isa true h = isa_mac (has_feature h).
Proof.
  unfold get_x86_isa. cbn zeta. rewrite !(sub1_bit h eax) by reflexivity. rewrite os_avx_feature. cbn [os_avx512]. rewrite andb_true_r. reflexivity.
Qed.
Lemma answer_sound_mac h : sane h -> has_feature h F_OS_YMM = true -> forall f, In f (answer_needs (get_x86_isa true h)) -> f <> F_OS_ZMM -> has_feature h f = true.
Proof.
  intros S YMM. rewrite isa_features_mac. destruct S as [S1 S2 S3 S4 S5 S6 _ _]. unfold isa_mac. cbn zeta.
  assert (T : forall l : list feature, Forall (fun f => f = F_OS_ZMM \/ has_feature h f = true) l -> forall f, In f l -> f <> F_OS_ZMM -> has_feature h f = true).
  { intros l F f I0 N. rewrite Forall_forall in F. destruct (F f I0); tauto. }
  repeat match goal with |- forall f, In f (answer_needs (if ?c then _ else _)) -> _ => let E := fresh "C" in destruct c eqn:E end; ands;
    try pose proof (S5 eq_refl); try match goal with H : has_feature h F_AVXVNNI = true |- _ => pose proof (S5 H) end;
    try pose proof (S4 eq_refl);
    try match goal with H : has_feature h F_AVX2 = true |- _ => destruct (S4 H) as (? & ? & ?) end;
    try match goal with H : has_feature h F_AVX = true |- _ => pose proof (S3 H) end;
    try match goal with H : has_feature h F_SSE42 = true |- _ => pose proof (S2 H) end;
    try match goal with H : has_feature h F_SSE41 = true |- _ => pose proof (S1 H) end;
    apply T; cbn [answer_needs needs In icl_set skx_set avx2_set avx_set app]; repeat (constructor; [auto|]); constructor.
Qed.
Lemma answer_complete_mac h i : has_feature h F_AVX512ER = false -> target_isa i -> num i <= num SKX_AVX512 -> supports_macos h i ->
  num i <= num (get_x86_isa true h).
Proof.
  intros ER (T1 & T2 & T3) LE SU. rewrite isa_features_mac. unfold isa_mac. cbn zeta. rewrite ER, !andb_false_r. cbn [andb].
  assert (Q : Forall (fun f => f <> F_OS_ZMM -> has_feature h f = true) (needs i)) by (apply Forall_forall; intros f F N; auto).
  destruct i; try tauto; cbn [num] in LE; try lia; cbn [needs] in Q;
    repeat match goal with
    | Q : Forall _ (_ ++ _) |- _ => apply Forall_app in Q; destruct Q
    | Q : Forall _ skx_set |- _ => unfold skx_set in Q
    | Q : Forall _ avx2_set |- _ => unfold avx2_set in Q
    | Q : Forall _ avx_set |- _ => unfold avx_set in Q
    | Q : Forall _ (_ :: _) |- _ => apply Forall_cons_iff in Q; destruct Q
    | Q : ?a <> ?b -> has_feature _ _ = true |- _ => first [assert (has_feature h a = true) by (apply Q; discriminate); clear Q | clear Q]
    end;
    repeat match goal with Q : has_feature h ?f = true |- context [has_feature h ?f] => rewrite Q end; cbn [andb];
    repeat match goal with |- context [if ?c then _ else _] => destruct c end; cbn [num]; lia.
Qed.
Lemma dispatch_supported_mac h has c : sane h -> has_feature h F_OS_YMM = true -> (forall i, has i = true -> target_isa i) -> dispatch true h has = Some c ->
  has c = true /\ (c <> AVX2VNNI \/ has_feature h F_AVX512F = false -> supports_macos h c).
Proof.
  intros S Y T D. unfold dispatch in D. destruct (get_system_isa true h) as [s|] eqn:G; [|discriminate].
  apply find_some in D as (_ & P). apply andb_prop in P as (Hc & P). split; auto. apply andb_prop in P as (P1 & P2). apply Z.leb_le in P1.
  intros NV f F NZ. pose proof (answer_sound_mac h S Y) as A. destruct (T c Hc) as (T1 & T2 & T3).
  assert (LE : num c <= num (get_x86_isa true h)) by (unfold get_system_isa in G; destruct (get_x86_isa true h); try discriminate; injection G as <-; cbn [num] in *; lia).
  assert (B : num (get_x86_isa true h) <= 8).
  { rewrite isa_features_mac. unfold isa_mac. cbn zeta. repeat match goal with |- context [if ?c then _ else _] => destruct c end; cbn [num]; lia. }
  destruct (get_x86_isa true h) eqn:E, c; cbn [num] in LE, B; try lia; try tauto;
    try (destruct NV as [NV|NV]; [tauto|]; exfalso; cbn [answer_needs needs In icl_set skx_set avx2_set avx_set app] in A;
         rewrite (A F_AVX512F) in NV; [discriminate|tauto|discriminate]); apply A; auto;
    cbn [answer_needs needs In icl_set skx_set avx2_set avx_set app] in *; tauto.
Qed.
Lemma dispatch_best_mac h has i : sane h -> has_feature h F_OS_YMM = true -> has_feature h F_AVX512ER = false -> target_isa i -> num i <= num SKX_AVX512 ->
  has i = true -> supports_macos h i -> exists c, dispatch true h has = Some c /\ num i <= num c.
Proof.
  intros S Y ER T L Hi SU. pose proof (answer_complete_mac h i ER T L SU) as LE. unfold dispatch.
  assert (NK : get_x86_isa true h <> KNL_AVX512).
  { intros E. pose proof (answer_sound_mac h S Y F_AVX512ER) as A. rewrite E in A. rewrite A in ER; [discriminate| |discriminate]. cbn. tauto. }
  destruct T as (T1 & T2 & T3).
  assert (G : exists s, get_system_isa true h = Some s /\ num i <= num s).
  { unfold get_system_isa. destruct (get_x86_isa true h); try congruence; try (eexists; split; [reflexivity|exact LE]).
    - destruct i; cbn [num] in LE; try lia. tauto.
    - exists AVX. split; auto. destruct i; cbn [num] in *; try lia. tauto. }
  destruct G as (s & -> & LE2).
  assert (P : has i && compatible i s (get_x86_has_amx true h) = true).
  { rewrite Hi. unfold compatible. apply Z.leb_le in LE2. rewrite LE2. destruct i; cbn [num requires_amx] in *; auto; lia. }
  unfold choose. destruct (find _ downward) as [c|] eqn:F.
  - exists c. split; auto. apply (find_first _ num _ _ i F downward_ordered (all_listed i T1) P).
  - exfalso. apply find_none with (x := i) in F; [congruence|]. apply all_listed; auto.
Qed.

(** Threads. *)
Lemma upd_same {A} (f : nat -> A) t x : upd f t x t = x.
Proof. unfold upd. rewrite Nat.eqb_refl. auto. Qed.
Lemma upd_cases {A} (f : nat -> A) t x u : (u = t /\ upd f t x u = x) \/ (u <> t /\ upd f t x u = f u).
Proof. unfold upd. destruct (Nat.eqb_spec t u); [left|right]; auto. Qed.

Record inv (coherent macos : bool) h has (s : state) : Prop := {
  i_ptr : forall c, ptr s = Some c -> dispatch macos h has = Some c;
  i_best : forall i, best s = Some i -> get_system_isa macos h = Some i;
  i_store : forall t c, at_ s t = StorePtr c -> dispatch macos h has = Some c;
  i_reload : forall t, at_ s t = Reload -> ptr s <> None;
  i_called : forall t f, at_ s t = Called f -> (coherent = false /\ f = None) \/ (f <> None /\ f = dispatch macos h has);
  i_term : forall t, at_ s t = Terminated -> dispatch macos h has = None
}.

Lemma inv_reachable coherent macos h has s : reachable coherent macos h has s -> inv coherent macos h has s.
Proof.
  induction 1 as [|s s' R IH ST]; [constructor; discriminate|]. destruct IH as [I1 I2 I3 I4 I5 I6].
  inversion ST; subst; clear ST.
  - constructor; cbn [ptr best at_]; auto; intros u;
      destruct (upd_cases (at_ s) t (match v with Some _ => Reload | None => LoadIsa end) u) as [(-> & E)|(N & E)]; rewrite E; eauto;
      destruct v as [x|]; try discriminate; intros _.
    destruct H0 as [<-|(_ & _ & ?)]; discriminate.
  - constructor; cbn [ptr best at_]; auto; intros u; destruct (upd_cases (at_ s) t (Called v) u) as [(-> & E)|(N & E)]; rewrite E; eauto; try discriminate.
    intros f Q. injection Q as <-. destruct H0 as [->|(C & _ & ->)]; [|left; auto]. right. specialize (I4 t H). destruct (ptr s) eqn:P; [|congruence].
    split; auto. symmetry. auto.
  - destruct (best s) as [i|] eqn:B.
    + assert (D : dispatch macos h has = choose has i (get_x86_has_amx macos h)) by (unfold dispatch; rewrite (I2 i eq_refl); auto).
      destruct (choose has i (get_x86_has_amx macos h)) as [c|] eqn:C.
      * constructor; cbn [ptr best at_]; auto; intros u; destruct (upd_cases (at_ s) t (StorePtr c) u) as [(-> & E)|(N & E)]; rewrite E; eauto; try discriminate.
        intros c' Q. injection Q as <-. auto.
      * constructor; cbn [ptr best at_]; auto; intros u; destruct (upd_cases (at_ s) t Terminated u) as [(-> & E)|(N & E)]; rewrite E; eauto; try discriminate.
    + constructor; cbn [ptr best at_]; auto; intros u; destruct (upd_cases (at_ s) t StoreIsa u) as [(-> & E)|(N & E)]; rewrite E; eauto; try discriminate.
  - destruct (get_system_isa macos h) as [i|] eqn:G.
    + assert (D : dispatch macos h has = choose has i (get_x86_has_amx macos h)) by (unfold dispatch; rewrite G; auto).
      destruct (choose has i (get_x86_has_amx macos h)) as [c|] eqn:C.
      * constructor; cbn [ptr best at_]; auto; try (intros u; destruct (upd_cases (at_ s) t (StorePtr c) u) as [(-> & E)|(N & E)]; rewrite E; eauto; try discriminate).
        -- intros; congruence.
        -- intros c' Q. injection Q as <-. auto.
      * constructor; cbn [ptr best at_]; auto; try (intros u; destruct (upd_cases (at_ s) t Terminated u) as [(-> & E)|(N & E)]; rewrite E; eauto; try discriminate).
        intros; congruence.
    + constructor; cbn [ptr best at_]; auto; try (intros u; destruct (upd_cases (at_ s) t Terminated u) as [(-> & E)|(N & E)]; rewrite E; eauto; try discriminate).
      all: unfold dispatch; rewrite G; auto.
  - constructor; cbn [ptr best at_]; auto; try (intros u; destruct (upd_cases (at_ s) t Reload u) as [(-> & E)|(N & E)]; rewrite E; eauto; discriminate).
    intros c' Q. injection Q as ->. eauto.
  - constructor; cbn [ptr best at_]; auto; intros u; destruct (upd_cases (at_ s) t Enter u) as [(-> & E)|(N & E)]; rewrite E; eauto; try discriminate.
Qed.

(** The ISAs of one compilation. *)
Lemma existsb_isa i l : existsb (isa_eqb i) l = true <-> In i l.
Proof.
  rewrite existsb_exists. split.
  - intros (x & I & E). apply Z.eqb_eq in E. assert (i = x) by (destruct i, x; cbn in E; congruence). congruence.
  - intros I. exists i. split; auto. apply Z.eqb_refl.
Qed.

Lemma fill_spec ts seen out : NoDup seen -> ~ (In SSE41 seen /\ In SSE42 seen) -> fill seen ts = Some out ->
  NoDup out /\ ~ (In SSE41 out /\ In SSE42 out) /\ (forall i, In i out <-> In i seen \/ In i ts).
Proof.
  revert seen. induction ts as [|i ts IH]; intros seen ND NS F; cbn [fill] in F.
  - injection F as <-. split; auto. split; auto. intros i. cbn. tauto.
  - destruct (existsb (isa_eqb i) seen) eqn:E1; [discriminate|]. destruct (_ || _) eqn:E2; [discriminate|].
    assert (NI : ~ In i seen) by (rewrite <- existsb_isa; congruence).
    apply orb_false_iff in E2 as (E2 & E3). destruct (IH (i :: seen)) as (A & B & C); auto.
    + constructor; auto.
    + intros ([H1|H1] & [H2|H2]); subst; try discriminate; try tauto.
      * cbn [isa_eqb num] in E3. assert (existsb (isa_eqb SSE42) seen = true) by (apply existsb_isa; auto). rewrite H in E3. discriminate.
      * assert (existsb (isa_eqb SSE41) seen = true) by (apply existsb_isa; auto). rewrite H in E2. discriminate.
    + split; auto. split; auto. intros j. rewrite C. cbn [In]. intuition.
Qed.

Lemma fill_some ts seen : NoDup (ts ++ seen) -> ~ (In SSE41 (ts ++ seen) /\ In SSE42 (ts ++ seen)) -> fill seen ts <> None.
Proof.
  revert seen. induction ts as [|i ts IH]; intros seen ND NS; cbn [fill]; [discriminate|].
  cbn [app] in *. inversion ND as [|? ? NI ND']; subst. rewrite in_app_iff in NI.
  destruct (existsb (isa_eqb i) seen) eqn:E1; [apply existsb_isa in E1; tauto|].
  destruct (_ || _) eqn:E2.
  - exfalso. apply NS. apply orb_prop in E2 as [E2|E2]; apply andb_prop in E2 as (E2 & E3); apply existsb_isa in E3; apply Z.eqb_eq in E2;
      destruct i; cbn in E2; try discriminate; cbn [In]; rewrite !in_app_iff; tauto.
  - apply IH; [apply NoDup_Add with (a := i) (l := ts ++ seen); [apply Add_app|split; auto; rewrite in_app_iff; tauto]|].
    intros (H1 & H2). apply NS. cbn [In] in *. rewrite !in_app_iff in *. cbn [In] in *. intuition.
Qed.

Lemma common_spec ts c : (forall i, In i ts -> i <> INVALID) -> common_isa ts = Some c -> In c ts /\ forall i, In i ts -> num c <= num i.
Proof.
  intros NI C. unfold common_isa in C. destruct (fill [] ts) as [seen|] eqn:F; [|discriminate].
  destruct (fill_spec ts [] seen (NoDup_nil _) ltac:(cbn; tauto) F) as (_ & _ & IN).
  pose proof C as C0. apply find_some in C as (_ & P). apply existsb_isa in P. apply IN in P as [[]|P]. split; auto.
  intros i I. assert (Q : existsb (isa_eqb i) seen = true) by (apply existsb_isa; apply IN; auto).
  assert (LE : - num i <= - num c); [|lia].
  apply (find_first (fun i => existsb (isa_eqb i) seen) (fun i => - num i) (rev downward)); auto.
  - intros l1 x l2 E y Y. assert (E' : downward = rev l2 ++ x :: rev l1).
    { rewrite <- (rev_involutive downward), E, rev_app_distr. cbn. rewrite <- app_assoc. auto. }
    apply in_split in Y as (a & b & ->). rewrite rev_app_distr in E'. cbn [rev] in E'. rewrite <- !app_assoc in E'. cbn [app] in E'.
    assert (num x < num y); [|lia]. eapply downward_ordered; [exact E'|]. rewrite in_app_iff. right. left. auto.
  - rewrite <- in_rev. apply all_listed. auto.
Qed.
