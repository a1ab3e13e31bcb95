(** Property C80: new and delete. *)
From Coq Require Import ZArith List Bool Lia.
From Verif Require Import HeapModel HeapSpec HeapProofs.
Import ListNotations.
Local Open Scope Z_scope.

(** new: every executing program instance gets its own block of count values, or a null pointer if there is no
    memory; the other instances get null pointers and allocate nothing; the blocks are aligned, no two live blocks
    overlap, the blocks that were there before stay; the initializer is stored once in every new block.  (Missing for
    the full property: sizes that do not fit, see below.) *)
Theorem C80_new_partial c A h mask t counts init h' ps ws :
  good A -> wf h -> 0 < t_size t -> (0 < width c)%nat -> length counts = length mask ->
  Forall (fun n => 0 <= n /\ fits c (n * documented_size c false t)) counts ->
  new_varying c A h mask t counts init = (h', ps, ws) ->
  exists bs, lane_blocks (alignment c) mask (map (fun n => n * documented_size c false t) counts) ps bs /\
    h' = rev bs ++ h /\ wf h' /\ Forall (fun b => b_addr b mod alignment c = 0) bs /\
    ws = match init with Some v => map (fun b => (b_addr b, v)) bs | None => [] end.
Proof.
  intros G W T Wd L F.
  assert (Ds : documented_size c false t = size_of c t) by (unfold documented_size, size_of, resolve; now destruct (t_rate t) as [[]|]).
  rewrite Ds in *. unfold new_varying.
  destruct (new_varying_rt _ _ _ _ _) as [h1 ps1] eqn:R. intros [= <- <- <-].
  destruct (new_rt_ok c A G mask (map (alloc_size c t) counts) h h1 ps1 W ltac:(now rewrite map_length) R) as (bs & B1 & B2 & B3 & B4).
  rewrite map_map in B1.
  rewrite (map_ext_in _ (fun n => n * size_of c t)) in B1.
  2:{ intros n Hn. rewrite Forall_forall in F. destruct (F n Hn) as [F1 F2]. rewrite alloc_size_ok by assumption. now apply received_ok. }
  exists bs. split; [exact B1|]. split; [exact B2|]. split; [exact B3|]. split.
  - eapply Forall_impl; [|exact B4]. intros b (_ & X & _). exact X.
  - destruct init as [v|]; [|reflexivity]. apply lane_blocks_addrs in B1 as [B1 _]. fold (nonnull ps1). rewrite <- B1, map_map. reflexivity.
Qed.

(** If there is memory, every executing instance gets some. *)
Theorem C80_new_succeeds c A h mask t counts init h' ps ws : (forall h al n, exists a, A h al n = Some a /\ a <> 0) ->
  length counts = length mask -> new_varying c A h mask t counts init = (h', ps, ws) ->
  Forall (fun p => p <> 0) (selected mask ps).
Proof.
  intros S L. unfold new_varying. destruct (new_varying_rt _ _ _ _ _) as [h1 ps1] eqn:R. intros [= <- <- <-].
  eapply new_rt_succeeds; [exact S| |exact R]. now rewrite map_length.
Qed.

(** uniform new: one block for the gang, as for new, if memory is available; with an allocated type whose rate is
    written. *)
Theorem C80_uniform_new_partial c A h t count init h' p ws :
  good A -> wf h -> 0 < t_size t -> (0 < width c)%nat -> t_rate t <> None ->
  0 <= count -> fits c (count * documented_size c true t) ->
  new_uniform c A h t count init = (h', p, ws) ->
  (exists a b, p = Ptr a /\ a <> 0 /\ h' = b :: h /\ b_addr b = a /\ b_size b = count * documented_size c true t /\
     a mod alignment c = 0 /\ wf h' /\ ws = match init with Some v => [(p, v)] | None => [] end) \/
  (h' = h /\ (A h (alignment c) (count * documented_size c true t) = None \/
              A h (alignment c) (count * documented_size c true t) = Some 0)).
Proof.
  intros G W T Wd R N F.
  assert (Ds : documented_size c true t = size_of c t) by (unfold documented_size, size_of, resolve; destruct (t_rate t) as [[]|]; easy).
  rewrite Ds in *. unfold new_uniform. rewrite alloc_size_ok, sext_ok by assumption. unfold new_uniform_rt.
  destruct (call_alloc c A h (count * size_of c t)) as [h1 r] eqn:E. pose proof E as E0. apply call_alloc_ok in E; [|assumption..].
  unfold call_alloc in E0. rewrite received_ok in * by assumption.
  destruct E as [[-> ->]|[[-> ->]|(a & -> & Na & E1 & (_ & E2 & _) & E3)]]; intros [= <- <- <-].
  - right. split; [reflexivity|]. left. destruct (A h _ _); [discriminate|reflexivity].
  - right. split; [reflexivity|]. right. destruct (A h _ _) as [a|]; [|discriminate]. injection E0 as _ ->. reflexivity.
  - left. exists a. eexists. split; [reflexivity|]. split; [exact Na|]. split; [exact E1|]. cbn in *. auto 10.
Qed.

(** delete: defined exactly if the pointers of the executing instances are null or the addresses of different live
    blocks; it frees these blocks and no other. *)
Theorem C80_delete mask ptrs h h' : wf h ->
  (delete_varying h mask ptrs = Some h' <->
   let del := filter (fun p => negb (p =? 0)) (selected mask ptrs) in
   NoDup del /\ (forall p, In p del -> exists b, In b h /\ b_addr b = p) /\
   h' = filter (fun b => negb (existsb (Z.eqb (b_addr b)) (selected mask ptrs))) h).
Proof. intros W. exact (delete_spec mask ptrs h h' W). Qed.

(** Any subset of the instances can delete what they have allocated, and the blocks of the others stay; if all do,
    the heap is as before. *)
Theorem C80_delete_own c A h mask t counts init h' ps ws mask' :
  good A -> wf h -> length counts = length mask -> new_varying c A h mask t counts init = (h', ps, ws) ->
  (exists h'', delete_varying h' mask' ps = Some h'' /\
     forall b, In b h'' <-> In b h' /\ ~ In (b_addr b) (selected mask' ps)) /\
  delete_varying h' mask ps = Some h.
Proof.
  intros G W L. unfold new_varying. destruct (new_varying_rt _ _ _ _ _) as [h1 ps1] eqn:R. intros [= <- <- <-].
  destruct (new_rt_ok c A G mask (map (alloc_size c t) counts) h h1 ps1 W ltac:(now rewrite map_length) R) as (bs & B1 & -> & B3 & B4).
  destruct (own_live _ _ _ _ _ _ B1 B3) as [O1 O2]. split.
  - exists (without (selected mask' ps1) (rev bs ++ h)). split.
    + apply delete_spec; [exact B3|]. destruct (NoDup_selected mask' ps1 O1) as [N1 N2]. auto.
    + intros b. unfold without. rewrite filter_In, negb_true_iff. split; intros [H1 H2]; (split; [exact H1|]).
      * intros X. rewrite (proj2 (existsb_exists _ _)) in H2; [discriminate|]. exists (b_addr b). split; [easy|apply Z.eqb_refl].
      * apply not_true_is_false. intros X. apply existsb_exists in X as (q & Q1 & Q2). apply Z.eqb_eq in Q2. congruence.
  - apply delete_spec; [exact B3|]. rewrite (lane_blocks_all _ _ _ _ _ B1). split; [exact O1|]. split; [exact O2|].
    destruct (lane_blocks_addrs _ _ _ _ _ B1) as [E _].
    assert (S : forall b, In b (rev bs ++ h) -> (In (b_addr b) (selected mask ps1) <-> In (b_addr b) (map b_addr bs))).
    { intros b Hb. rewrite E, <- (lane_blocks_all _ _ _ _ _ B1), nonnull_in. destruct B3 as [_ B3]. rewrite Forall_forall in B3.
      specialize (B3 b Hb). tauto. }
    apply wf_nodup in B3 as N. unfold without. rewrite filter_app.
    replace (filter _ (rev bs)) with (@nil block); [symmetry; cbn [app]|symmetry].
    + assert (K : forall b, In b h -> existsb (Z.eqb (b_addr b)) (selected mask ps1) = false).
      { intros b Hb. apply not_true_is_false. intros X. apply existsb_exists in X as (q & Q1 & Q2). apply Z.eqb_eq in Q2. subst q.
        apply S in Q1; [|apply in_or_app; now right]. rewrite map_app, map_rev in N.
        clear - N Q1 Hb. apply in_rev in Q1. induction (rev (map b_addr bs)) as [|x l IH]; [destruct Q1|].
        cbn in N. inversion N as [|y l' N1 N2]; subst. destruct Q1 as [->|Q1]; [|now apply IH].
        apply N1, in_or_app. right. now apply in_map. }
      clear - K. induction h as [|b h IH]; [reflexivity|]. cbn. rewrite K by now left. cbn. f_equal. apply IH. intros x Hx. apply K. now right.
    + assert (K : forall b, In b (rev bs) -> existsb (Z.eqb (b_addr b)) (selected mask ps1) = true).
      { intros b Hb. apply existsb_exists. exists (b_addr b). split; [|apply Z.eqb_refl].
        apply S; [apply in_or_app; now left|]. apply in_map. now apply in_rev. }
      clear - K. induction (rev bs) as [|b l IH]; [reflexivity|]. cbn. rewrite K by now left. cbn. apply IH. intros x Hx. apply K. now right.
Qed.

(** Documented error: the same pointer deleted by two instances. *)
Theorem C80_delete_twice h mask ptrs p i j : wf h -> p <> 0 -> i <> j ->
  nth_error mask i = Some true -> nth_error mask j = Some true -> nth_error ptrs i = Some p -> nth_error ptrs j = Some p ->
  delete_varying h mask ptrs = None.
Proof.
  intros W P. assert (K : forall mask ptrs i, nth_error mask i = Some true -> nth_error ptrs i = Some p -> In p (nonnull (selected mask ptrs))).
  { induction mask0 as [|m mk IH]; intros [|q qs] [|k] H1 H2; try discriminate; cbn in *.
    - injection H1 as ->. injection H2 as ->. cbn. destruct (Z.eqb_spec p 0); [contradiction|now left].
    - specialize (IH qs k H1 H2). destruct m; [|exact IH]. cbn. destruct (negb (q =? 0)); [now right|exact IH]. }
  intros N M1 M2 P1 P2. destruct (delete_varying h mask ptrs) as [h'|] eqn:E; [exfalso|reflexivity].
  apply (delete_spec mask ptrs h h' W) in E as (E & _). revert i j ptrs N M1 M2 P1 P2 E.
  induction mask as [|m mask IH]; intros [|i] [|j] [|q ptrs] N M1 M2 P1 P2 E; try discriminate; try congruence; cbn in *.
  - injection M1 as ->. injection P1 as ->. cbn in E. destruct (Z.eqb_spec p 0); [contradiction|]. inversion E as [|x l E1 E2]; subst.
    apply E1. eapply K; eassumption.
  - injection M2 as ->. injection P2 as ->. cbn in E. destruct (Z.eqb_spec p 0); [contradiction|]. inversion E as [|x l E1 E2]; subst.
    apply E1. eapply K; eassumption.
  - eapply (IH i j ptrs); try eassumption; [congruence|]. destruct m; [|exact E]. cbn in E. destruct (negb (q =? 0)); [now inversion E|exact E].
Qed.

(** AVX2 with 8 lanes and the default addressing, for the examples. *)
Definition avx2 : config := {| width := 8; is32 := false; force32 := true; windows := false; generic := false |}.

(** Documented: uniform new float[10] allocates 10 varying floats, 320 bytes with a gang of 8.  The rate of the type
    is uniform whatever the rate of new: 40 bytes. *)
Theorem C80_uniform_new_rate_refuted :
  exists c A h h' p b ws, good A /\ wf h /\ new_uniform c A h {| t_size := 4; t_rate := None |} 10 None = (h', p, ws) /\
    h' = b :: h /\ b_size b = 40 /\ 10 * documented_size c true {| t_size := 4; t_rate := None |} = 320.
Proof.
  exists avx2, bump, []. do 4 eexists. split; [apply bump_good|]. split; [split; constructor|].
  split; [reflexivity|]. split; [reflexivity|]. split; reflexivity.
Qed.

(** The size in bytes is computed with 32 bits unless --addressing=64 is given: new float[n] with n = 2^30 + 1
    allocates 4 bytes. *)
Theorem C80_new_size_refuted :
  exists c A h h' ps b ws, good A /\ wf h /\ new_varying c A h [true] {| t_size := 4; t_rate := Some Uniform |} [2 ^ 30 + 1] None = (h', ps, ws) /\
    is32 c = false /\ h' = [b] /\ b_size b = 4.
Proof.
  exists avx2, bump, []. do 4 eexists. split; [apply bump_good|]. split; [split; constructor|].
  split; [reflexivity|]. split; [reflexivity|]. split; reflexivity.
Qed.

(** The generic library declares the size parameter of posix_memalign as int32 also on 64-bit targets: with
    --addressing=64 an allocation of 2^32 + 4 bytes yields 4 bytes. *)
Theorem C80_generic_size_refuted :
  exists c A h h' ps b ws, good A /\ wf h /\ new_varying c A h [true] {| t_size := 4; t_rate := Some Uniform |} [2 ^ 30 + 1] None = (h', ps, ws) /\
    is32 c = false /\ force32 c = false /\ h' = [b] /\ b_size b = 4.
Proof.
  exists {| width := 8; is32 := false; force32 := false; windows := false; generic := true |}, bump, []. do 4 eexists.
  split; [apply bump_good|]. split; [split; constructor|].
  split; [reflexivity|]. split; [reflexivity|]. split; [reflexivity|]. split; reflexivity.
Qed.

(** If there is no memory, uniform new returns whatever was in the variable given to posix_memalign (the result
    is not looked at and the variable not set before), and stores the initializer there; varying new returns a null
    pointer and stores nothing. *)
Theorem C80_uniform_new_failure_refuted :
  exists c A h t, good A /\ wf h /\ new_uniform c A h t 1 (Some 5) = (h, Undef, [(Undef, 5)]) /\
    new_varying c A h [true] t [1] (Some 5) = (h, [0], []).
Proof.
  exists avx2, (fun _ _ _ => None), [], {| t_size := 4; t_rate := Some Uniform |}. split; [intros h al n a [=]|].
  split; [split; constructor|]. split; reflexivity.
Qed.

(** The initializer of a varying type is stored with an aligned store.  The block is aligned enough for elements of
    up to 4 bytes. *)
Theorem C80_initializer_alignment_partial c A h t count init h' p ws :
  good A -> wf h -> (2 <= width c)%nat -> t_rate t = Some Varying -> In (t_size t) [1; 2; 4] ->
  0 <= count -> fits c (count * documented_size c true t) ->
  new_uniform c A h t count init = (h', p, ws) ->
  forall a v, In (Ptr a, v) ws -> a mod store_alignment c t = 0.
Proof.
  intros G W Wd R Sz N F E a v I. unfold store_alignment, size_of, resolve. rewrite R.
  assert (P : 0 < t_size t) by (destruct Sz as [<-|[<-|[<-|[]]]]; lia).
  assert (D : exists k, alignment c = k * (Z.of_nat (width c) * t_size t)).
  { unfold alignment. destruct (Nat.eqb_spec (width c) 1); [lia|]. destruct Sz as [<-|[<-|[<-|[]]]]; [exists 4|exists 2|exists 1]; lia. }
  assert (Q : forall x, x mod alignment c = 0 -> x mod (Z.of_nat (width c) * t_size t) = 0).
  { intros x Hx. destruct D as [k D]. rewrite D in Hx. destruct (Z.eq_dec k 0) as [->|Nk].
    - exfalso. unfold alignment in D. destruct (Nat.eqb (width c) 1); lia.
    - apply Z.mod_divide; [nia|]. apply Z.mod_divide in Hx; [|nia]. destruct Hx as [z ->]. exists (z * k). ring. }
  apply Q. destruct (C80_uniform_new_partial c A h t count init h' p ws G W P ltac:(lia) ltac:(congruence) N F E)
    as [(a0 & b & -> & _ & _ & _ & _ & Al & _ & ->)|_].
  - destruct init; [|destruct I]. destruct I as [[= <- _]|[]]. exact Al.
  - unfold new_uniform in E. destruct (new_uniform_rt c A h _) as [h1 p1] eqn:E1. injection E as _ <- <-.
    destruct init; [|destruct I]. destruct I as [[= -> _]|[]]. unfold new_uniform_rt in E1.
    destruct (call_alloc c A h _) as [h2 r] eqn:E2. apply call_alloc_ok in E2; [|assumption..].
    destruct E2 as [[-> _]|[[-> _]|(x & -> & _ & _ & (_ & Ax & _) & _)]].
    + destruct (windows c || generic c); [|discriminate]. injection E1 as _ <-. apply Z.mod_0_l. unfold alignment. destruct (Nat.eqb _ _); lia.
    + injection E1 as _ <-. apply Z.mod_0_l. unfold alignment. destruct (Nat.eqb _ _); lia.
    + injection E1 as _ <-. exact Ax.
Qed.

(** With elements of 8 bytes it need not be: uniform new varying double(1) on AVX2 with 4 lanes stores to an address
    that is a multiple of 16 only, with a store for which it has to be one of 32. *)
Theorem C80_initializer_alignment_refuted :
  exists c A h h' t a v ws, good A /\ wf h /\ new_uniform c A h t 1 (Some v) = (h', Ptr a, ws) /\
    In (Ptr a, v) ws /\ a mod store_alignment c t <> 0.
Proof.
  exists {| width := 4; is32 := false; force32 := true; windows := false; generic := false |}.
  set (A := fun (h : heap) (al n : Z) => if (al =? 16) && (match h with [] => true | _ => false end) then Some 48 else None).
  exists A, []. do 1 eexists. exists {| t_size := 8; t_rate := Some Varying |}, 48, 1. eexists.
  split; [|split; [split; constructor|split; [reflexivity|split; [now left|discriminate]]]].
  intros h al n a. unfold A. destruct (Z.eqb_spec al 16) as [->|]; [|discriminate]. destruct h; [|discriminate]. intros [= <-] _.
  split; [lia|]. split; [reflexivity|]. intros b [].
Qed.

(** The hypotheses can be met: two executing instances of four allocate 3 and 5 values, the first deletes its own. *)
Example C80_case : exists h ps ws h2,
  new_varying {| width := 4; is32 := false; force32 := true; windows := false; generic := false |} bump [] [true; false; true; false]
    {| t_size := 4; t_rate := None |} [3; 7; 5; 9] (Some 1) = (h, ps, ws) /\
  map b_size h = [20; 12] /\ length ws = 2%nat /\ delete_varying h [true; true; false; false] ps = Some h2 /\ map b_size h2 = [20] /\
  good bump /\ wf [].
Proof. do 4 eexists. split; [reflexivity|]. split; [reflexivity|]. split; [reflexivity|]. split; [reflexivity|]. split; [reflexivity|]. split; [apply bump_good|split; constructor]. Qed.

Print Assumptions C80_new_partial.
Print Assumptions C80_new_succeeds.
Print Assumptions C80_uniform_new_partial.
Print Assumptions C80_delete.
Print Assumptions C80_delete_own.
Print Assumptions C80_delete_twice.
Print Assumptions C80_uniform_new_rate_refuted.
Print Assumptions C80_new_size_refuted.
Print Assumptions C80_generic_size_refuted.
Print Assumptions C80_uniform_new_failure_refuted.
Print Assumptions C80_initializer_alignment_partial.
Print Assumptions C80_initializer_alignment_refuted.
