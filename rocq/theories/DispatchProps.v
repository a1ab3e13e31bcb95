(** C42: a program compiled for several targets runs the best variant the machine supports.
    [supports], [needs] and [has_feature] (DispatchSpec.v) say what a machine can run; [has] is the set of compiled variants. *)
From Coq Require Import ZArith List Bool Lia.
From Verif Require Import DispatchModel DispatchSpec DispatchProofs.
Import ListNotations.
Open Scope Z_scope.

(** Machines for the examples: a register with the given bits set. *)
Definition b (l : list Z) : Z := fold_right (fun n a => Z.lor (2 ^ n) a) 0 l.
Definition machine l1c l7b l7c l7d l71a l71d v xcr : host :=
  {| leaf1 := {| eax := 329315; ebx := 0; ecx := b l1c; edx := b [26] |};
     leaf7 := {| eax := 1; ebx := b l7b; ecx := b l7c; edx := b l7d |};
     leaf7_1 := {| eax := b l71a; ebx := 0; ecx := 0; edx := b l71d |};
     leaf24 := {| eax := 0; ebx := v; ecx := 0; edx := 0 |}; xcr0 := b xcr |}.
Definition nehalem := machine [19; 20] [] [] [] [] [] 0 [].
Definition haswell := machine [12; 19; 20; 27; 28; 29; 30] [5] [] [] [] [] 0 [0; 1; 2].
Definition skylake_server := machine [12; 19; 20; 27; 28; 29; 30] [5; 16; 17; 28; 30; 31] [] [] [] [] 0 [0; 1; 2; 5; 6; 7].
Definition icelake_server := machine [12; 19; 20; 27; 28; 29; 30] [5; 16; 17; 28; 30; 31] [6; 8; 9; 10; 11; 12; 14] [] [] [] 0 [0; 1; 2; 5; 6; 7].
(** A machine under macOS, before the thread has executed an AVX-512 instruction *)
Definition icelake_mac := machine [12; 19; 20; 27; 28; 29; 30] [5; 16; 17; 28; 30; 31] [6; 8; 9; 10; 11; 12; 14] [] [] [] 0 [0; 1; 2].
Definition sapphire_rapids := machine [12; 19; 20; 27; 28; 29; 30] [5; 16; 17; 28; 30; 31] [6; 8; 9; 10; 11; 12; 14] [22; 23; 24; 25] [4; 5] [] 0 [0; 1; 2; 5; 6; 7; 17; 18].
Definition alder_lake := machine [12; 19; 20; 27; 28; 29; 30] [5] [] [] [4] [] 0 [0; 1; 2].
Definition knights_landing := machine [12; 19; 20; 27; 28; 29; 30] [5; 16; 26; 27; 28] [] [] [] [] 0 [0; 1; 2; 5; 6; 7].
Definition nova_lake := machine [12; 19; 20; 27; 28; 29; 30] [5; 16; 17; 28; 30; 31] [6; 8; 9; 10; 11; 12; 14] [23] [0; 1; 2; 4; 5; 7; 23] [4; 5; 10; 19; 21] 2 [0; 1; 2; 5; 6; 7].
Definition no_fma := machine [19; 20; 27; 28; 29; 30] [5] [] [] [] [] 0 [0; 1; 2].
Definition compiled (l : list isa) (i : isa) : bool := existsb (isa_eqb i) l.

Lemma sane_dec h : (forallb (fun p => implb (has_feature h (fst p)) (forallb (has_feature h) (snd p)))
    [(F_SSE41, [F_SSE2]); (F_SSE42, [F_SSE41]); (F_AVX, [F_SSE42]); (F_AVX2, [F_AVX; F_F16C; F_RDRAND]); (F_AVXVNNI, [F_AVX2]); (F_OS_ZMM, [F_OS_YMM])]
    && implb (has_feature h F_AVX10 && has_feature h F_AMXTILE) (forallb (has_feature h) [F_BF16; F_AVXVNNI; F_AMXFP16; F_PREFETCHI])
    && (24 <=? eax (leaf1 h)))%bool = true -> sane h.
Proof.
  intros H. apply andb_prop in H as (H & L). apply andb_prop in H as (H & A). cbn [forallb fst snd] in *. rewrite !andb_true_r in *.
  repeat (match goal with [ H : _ && _ = true |- _ ] => apply andb_prop in H as (? & ?) end).
  constructor; try (intros E; rewrite E in *; cbn [implb andb] in *);
    repeat (match goal with [ H : (_ && _)%bool = true |- _ ] => apply andb_prop in H as (? & ?) end); auto.
  - intros E2. rewrite E2 in A. cbn [implb] in A. repeat (match goal with [ H : (_ && _)%bool = true |- _ ] => apply andb_prop in H as (? & ?) end). repeat split; auto.
  - apply Z.leb_le. auto.
Qed.
Lemma supports_dec h i : forallb (has_feature h) (needs i) = true <-> supports h i.
Proof. apply forallb_forall. Qed.

(** C42, what runs is supported.  Partial: the claim does not hold of the variant for AVX2 with AVX-VNNI on machines with
    AVX-512, see C42_vnni_refuted; and [needs] has the features the run-time check knows of, see C42_fma_refuted.
    Operating systems other than macOS. *)
Theorem C42_runs_supported_partial : forall (h : host) (has : isa -> bool) (c : isa),
  sane h -> (forall i, has i = true -> target_isa i) ->
  dispatch false h has = Some c ->
  has c = true /\ (c <> AVX2VNNI \/ has_feature h F_AVX512F = false -> supports h c).
Proof. exact dispatch_supported. Qed.
Print Assumptions C42_runs_supported_partial.

(** C42, nothing better was compiled; in particular the program is not terminated when any compiled variant is supported.
    Partial: not on machines with AVX512ER (Knights Landing), see C42_knl_refuted. *)
Theorem C42_runs_best_partial : forall (h : host) (has : isa -> bool) (i : isa),
  sane h -> has_feature h F_AVX512ER = false -> target_isa i ->
  has i = true -> supports h i ->
  exists c, dispatch false h has = Some c /\ num i <= num c.
Proof. exact dispatch_best. Qed.
Print Assumptions C42_runs_best_partial.

(** If none is supported the program is terminated (same exception as for C42_runs_supported_partial). *)
Theorem C42_terminates_partial : forall (h : host) (has : isa -> bool),
  sane h -> (forall i, has i = true -> target_isa i) ->
  has AVX2VNNI = false \/ has_feature h F_AVX512F = false ->
  (forall i, has i = true -> ~ supports h i) -> dispatch false h has = None.
Proof.
  intros h has S T V N. destruct (dispatch false h has) as [c|] eqn:D; auto. exfalso.
  destruct (dispatch_supported h has c S T D) as (Hc & SU). apply (N c Hc), SU. destruct V as [V|V]; auto. left. congruence.
Qed.
Print Assumptions C42_terminates_partial.

(** The same on macOS, for variants up to the first AVX-512 one. *)
Theorem C42_macos_runs_supported_partial : forall (h : host) (has : isa -> bool) (c : isa),
  sane h -> has_feature h F_OS_YMM = true -> (forall i, has i = true -> target_isa i) ->
  dispatch true h has = Some c ->
  has c = true /\ (c <> AVX2VNNI \/ has_feature h F_AVX512F = false -> supports_macos h c).
Proof. exact dispatch_supported_mac. Qed.
Print Assumptions C42_macos_runs_supported_partial.
Theorem C42_macos_runs_best_partial : forall (h : host) (has : isa -> bool) (i : isa),
  sane h -> has_feature h F_OS_YMM = true -> has_feature h F_AVX512ER = false -> target_isa i -> num i <= num SKX_AVX512 ->
  has i = true -> supports_macos h i ->
  exists c, dispatch true h has = Some c /\ num i <= num c.
Proof. exact dispatch_best_mac. Qed.
Print Assumptions C42_macos_runs_best_partial.
(** On macOS a program for a later instruction set only is terminated also on machines that have it. *)
Theorem C42_macos_icl_refuted :
  sane icelake_mac /\ has_feature icelake_mac F_OS_YMM = true /\ supports_macos icelake_mac ICL_AVX512 /\ dispatch true icelake_mac (compiled [ICL_AVX512]) = None.
Proof.
  split; [apply sane_dec; reflexivity|]. split; [reflexivity|]. split; [|reflexivity]. intros f F N.
  cbn [needs In icl_set skx_set avx2_set avx_set app] in F. repeat (destruct F as [<-|F]; [first [reflexivity|congruence]|]). destruct F.
Qed.
Print Assumptions C42_macos_icl_refuted.
Example C42_macos_example : sane icelake_mac /\ has_feature icelake_mac F_OS_YMM = true /\ has_feature icelake_mac F_AVX512ER = false /\ supports_macos icelake_mac SKX_AVX512 /\
  dispatch true icelake_mac (compiled [SSE42; AVX2; SKX_AVX512; ICL_AVX512]) = Some SKX_AVX512 /\ dispatch false icelake_mac (compiled [SSE42; AVX2; SKX_AVX512; ICL_AVX512]) = Some AVX2.
Proof.
  split; [apply sane_dec; reflexivity|]. split; [reflexivity|]. split; [reflexivity|]. split; [|split; reflexivity]. intros f F N.
  cbn [needs In icl_set skx_set avx2_set avx_set app] in F. repeat (destruct F as [<-|F]; [first [reflexivity|congruence]|]). destruct F.
Qed.

Example C42_hosts : sane nehalem /\ sane haswell /\ sane skylake_server /\ sane icelake_server /\ sane sapphire_rapids /\ sane alder_lake /\ sane nova_lake.
Proof. do 6 (split; [apply sane_dec; reflexivity|]). apply sane_dec. reflexivity. Qed.
Example C42_example :
  let has := compiled [SSE42; AVX2; SKX_AVX512; SPR_AVX512] in
  (dispatch false nehalem has, dispatch false haswell has, dispatch false skylake_server has, dispatch false icelake_server has,
   dispatch false sapphire_rapids has, dispatch false alder_lake has, dispatch false nova_lake has)
  = (Some SSE42, Some AVX2, Some SKX_AVX512, Some SKX_AVX512, Some SPR_AVX512, Some AVX2, Some SKX_AVX512)
  /\ supports haswell AVX2 /\ supports sapphire_rapids SPR_AVX512 /\ supports nova_lake NVL_AVX10_2
  /\ (forall i, has i = true -> target_isa i) /\ has_feature sapphire_rapids F_AVX512ER = false
  /\ dispatch false haswell (compiled [SKX_AVX512]) = None /\ ~ supports haswell SKX_AVX512.
Proof.
  cbn zeta. split; [reflexivity|]. do 3 (split; [apply supports_dec; reflexivity|]).
  split; [intros i; destruct i; cbn; intros; try discriminate; repeat split; discriminate|].
  split; [reflexivity|]. split; [reflexivity|]. rewrite <- supports_dec. discriminate.
Qed.

(** Not so: on a machine with AVX-512 and without AVX-VNNI the AVX-VNNI variant is run, although the AVX2 one was there too. *)
Theorem C42_vnni_refuted :
  sane icelake_server /\ dispatch false icelake_server (compiled [AVX2; AVX2VNNI]) = Some AVX2VNNI /\
  has_feature icelake_server F_AVXVNNI = false /\ ~ supports icelake_server AVX2VNNI /\ supports icelake_server AVX2.
Proof.
  split; [apply sane_dec; reflexivity|]. split; [reflexivity|]. split; [reflexivity|]. rewrite <- !supports_dec. split; [discriminate|reflexivity].
Qed.
(** The AVX2 variants are compiled for Haswell, with fused multiply-add; the run-time check does not look for it. *)
Theorem C42_fma_refuted :
  sane no_fma /\ dispatch false no_fma (compiled [AVX; AVX2]) = Some AVX2 /\ has_feature no_fma F_FMA = false.
Proof. split; [apply sane_dec; reflexivity|]. split; reflexivity. Qed.
(** On Knights Landing every program is terminated. *)
Theorem C42_knl_refuted :
  sane knights_landing /\ supports knights_landing AVX2 /\ forall has, dispatch false knights_landing has = None.
Proof. split; [apply sane_dec; reflexivity|]. split; [apply supports_dec; reflexivity|]. reflexivity. Qed.

(** C42, any number of threads making any number of calls in any interleaving, the first calls racing on the cached answers:
    every call goes to the variant [dispatch] selects, and a thread is terminated only if there is none.
    [coherent = true]: a load of the cached pointer returns the last value stored. *)
Theorem C42_threads : forall macos h has s, reachable true macos h has s ->
  (forall t f, at_ s t = Called f -> exists c, f = Some c /\ dispatch macos h has = Some c) /\
  (forall t, at_ s t = Terminated -> dispatch macos h has = None).
Proof.
  intros macos h has s R. pose proof (inv_reachable _ _ _ _ _ R) as V. split; [|exact (i_term _ _ _ _ _ V)].
  intros t f E. destruct (i_called _ _ _ _ _ V t f E) as [(? & _)|(N & Q)]; [discriminate|]. destruct f as [c|]; [|congruence]. eauto.
Qed.
Print Assumptions C42_threads.
(** The loads and stores are only "unordered": a load may return any value stored earlier that the thread has not itself
    overwritten.  Then a variant that runs is still the right one ... *)
Theorem C42_unordered_partial : forall macos h has s, reachable false macos h has s ->
  (forall t c, at_ s t = Called (Some c) -> dispatch macos h has = Some c) /\
  (forall t, at_ s t = Terminated -> dispatch macos h has = None).
Proof.
  intros macos h has s R. pose proof (inv_reachable _ _ _ _ _ R) as V. split; [|exact (i_term _ _ _ _ _ V)].
  intros t c E. destruct (i_called _ _ _ _ _ V t _ E) as [(_ & ?)|(N & Q)]; [discriminate|auto].
Qed.
Print Assumptions C42_unordered_partial.
(** ... but the second load, after the null test, may return null, and null is called. *)
Theorem C42_unordered_refuted : exists s t, reachable false false haswell (compiled [AVX2]) s /\ at_ s t = Called None.
Proof.
  eexists _, 1%nat. split; [|].
  - eapply RStep; [eapply RStep; [eapply RStep; [eapply RStep; [eapply RStep; [eapply RStep; [apply RInit|]|]|]|]|]|].
    + eapply (SEnter _ _ _ _ _ 0%nat None); [reflexivity|]. left. reflexivity.
    + eapply (SLoadIsa _ _ _ _ _ 0%nat). reflexivity.
    + eapply (SStoreIsa _ _ _ _ _ 0%nat). reflexivity.
    + eapply (SStorePtr _ _ _ _ _ 0%nat AVX2). reflexivity.
    + apply (SEnter _ _ _ _ _ 1%nat (Some AVX2)); [reflexivity|]. left. reflexivity.
    + apply (SReload _ _ _ _ _ 1%nat None); [reflexivity|]. right. repeat split.
  - reflexivity.
Qed.
Example C42_threads_example : exists s, reachable true false haswell (compiled [AVX2]) s /\ at_ s 0%nat = Called (Some AVX2).
Proof.
  eexists. split.
  - eapply RStep; [eapply RStep; [eapply RStep; [eapply RStep; [eapply RStep; [apply RInit|]|]|]|]|].
    + eapply (SEnter _ _ _ _ _ 0%nat None); [reflexivity|]. left. reflexivity.
    + eapply (SLoadIsa _ _ _ _ _ 0%nat). reflexivity.
    + eapply (SStoreIsa _ _ _ _ _ 0%nat). reflexivity.
    + eapply (SStorePtr _ _ _ _ _ 0%nat AVX2). reflexivity.
    + apply (SReload _ _ _ _ _ 0%nat (Some AVX2)); [reflexivity|]. left. reflexivity.
  - reflexivity.
Qed.

(** C42, the targets of one compilation: accepted exactly when no instruction set occurs twice, SSE4.1 and SSE4.2 counting as
    one; the dispatch functions are then compiled for the first of them. *)
Theorem C42_accepts : forall ts, (forall i, In i ts -> i <> INVALID) ->
  (fill [] ts <> None <-> NoDup ts /\ ~ (In SSE41 ts /\ In SSE42 ts)).
Proof.
  intros ts NI. split.
  - destruct (fill [] ts) as [out|] eqn:F; [|congruence]. intros _. destruct (fill_spec ts [] out (NoDup_nil _) ltac:(cbn; tauto) F) as (A & B & C).
    split.
    + assert (G : forall ts seen out, fill seen ts = Some out -> out = rev ts ++ seen).
      { clear. induction ts as [|i ts IH]; intros seen out; cbn [fill]; [intros Q; injection Q as <-; auto|].
        destruct (existsb _ seen); [discriminate|]. destruct (_ || _); [discriminate|]. intros Q. apply IH in Q. subst. cbn. rewrite <- app_assoc. auto. }
      apply G in F. rewrite app_nil_r in F. subst. rewrite <- (rev_involutive ts). apply NoDup_rev. auto.
    + intros (H1 & H2). apply B. split; apply C; auto.
  - intros (N & S). apply fill_some; rewrite app_nil_r; auto.
Qed.
Print Assumptions C42_accepts.
Theorem C42_common : forall ts c, (forall i, In i ts -> i <> INVALID) -> common_isa ts = Some c -> In c ts /\ forall i, In i ts -> num c <= num i.
Proof. exact common_spec. Qed.
Print Assumptions C42_common.
Example C42_common_example : common_isa [SKX_AVX512; SSE42; AVX2] = Some SSE42 /\ common_isa [SSE41; AVX2; SSE42] = None /\ common_isa [AVX2; AVX2] = None.
Proof. repeat split. Qed.
(** Not so that every machine which has one of the instruction sets can run the dispatch function: the order is not one of inclusion. *)
Theorem C42_common_refuted : common_isa [SPR_AVX512; NVL_AVX10_2] = Some SPR_AVX512 /\
  dispatch false nova_lake (compiled [SPR_AVX512; NVL_AVX10_2]) = Some NVL_AVX10_2 /\ ~ supports nova_lake SPR_AVX512.
Proof. split; [reflexivity|]. split; [reflexivity|]. rewrite <- supports_dec. discriminate. Qed.
