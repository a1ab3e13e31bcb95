(** C15-C18, C26: reductions, scans, lane permutations, packed loads/stores, AoS/SoA. *)
From Coq Require Import ZArith Lia List Bool SpecFloat.
From Verif Require Import Bits LanesModel LanesSpec LanesProofs LanesProofs2.
Import ListNotations.
Local Open Scope Z_scope.

(** ** C15: reductions combine exactly the running instances' values (W: any gang size up to 64). *)

Theorem C15_any W mask v : any W mask v = true <-> exists l, In l (running W mask) /\ v l = true.
Proof. apply any_ok. Qed.

Theorem C15_all W mask v : (W <= 64)%nat ->
  (all W mask v = true <-> forall l, In l (running W mask) -> v l = true).
Proof. apply all_ok. Qed.

Theorem C15_none W mask v : none W mask v = true <-> forall l, In l (running W mask) -> v l = false.
Proof. apply none_ok. Qed.

Theorem C15_popcnt_bool W mask v : (W <= 64)%nat ->
  popcnt_bool W mask v = Z.of_nat (length (filter v (running W mask))).
Proof.
  intros HW. unfold popcnt_bool. rewrite ctpop_movmsk by assumption. f_equal. f_equal.
  unfold running. induction (seq 0 W) as [|i l IH]; cbn [filter]; [reflexivity|].
  destruct (mask i), (v i) eqn:E; cbn [andb filter]; rewrite ?E; congruence.
Qed.

Theorem C15_lanemask W mask i : 0 <= i ->
  Z.testbit (lanemask W mask) i = true <-> In (Z.to_nat i) (running W mask).
Proof.
  intros Hi. unfold lanemask. rewrite movmsk_testbit, andb_true_iff, Z.ltb_lt, in_running by assumption.
  intuition lia.
Qed.

Theorem C15_packmask W mask v i : 0 <= i ->
  Z.testbit (packmask W mask v) i = true <-> In (Z.to_nat i) (running W mask) /\ v (Z.to_nat i) = true.
Proof.
  intros Hi. unfold packmask. rewrite movmsk_testbit, !andb_true_iff, Z.ltb_lt, in_running by assumption.
  intuition lia.
Qed.

Theorem C15_reduce_add_signed n W mask x : 0 < n -> (0 < W)%nat ->
  (forall l, In l (running W mask) -> - 2 ^ (n - 1) <= x l < 2 ^ (n - 1)) ->
  is_wrap_s n (total (running_values W mask x)) (reduce_add_s n W mask x).
Proof. intros Hn HW Hx. apply reduce_add_s_ok; trivial. intros. apply Hx, in_running. auto. Qed.

Theorem C15_reduce_add_unsigned n W mask x : 0 < n -> (0 < W)%nat ->
  (forall l, In l (running W mask) -> 0 <= x l < 2 ^ n) ->
  is_wrap_u n (total (running_values W mask x)) (reduce_add_u n W mask x).
Proof. intros Hn HW Hx. apply reduce_add_u_ok; trivial. intros. apply Hx, in_running. auto. Qed.

Theorem C15_reduce_min_signed n W mask x : (0 < W)%nat -> running W mask <> [] ->
  (forall l, In l (running W mask) -> - 2 ^ (n - 1) <= x l < 2 ^ (n - 1)) ->
  is_min (running_values W mask x) (reduce_min_s n W mask x).
Proof.
  intros HW Hr Hx. apply vreduce_min_ok; trivial.
  - intros l Hl M. specialize (Hx l ltac:(apply in_running; auto)). lia.
  - destruct (running W mask) as [|l r]; [congruence|exists l; left; reflexivity].
Qed.

Theorem C15_reduce_min_unsigned n W mask x : (0 < W)%nat -> running W mask <> [] ->
  (forall l, In l (running W mask) -> 0 <= x l < 2 ^ n) ->
  is_min (running_values W mask x) (reduce_min_u n W mask x).
Proof.
  intros HW Hr Hx. apply vreduce_min_ok; trivial.
  - intros l Hl M. specialize (Hx l ltac:(apply in_running; auto)). lia.
  - destruct (running W mask) as [|l r]; [congruence|exists l; left; reflexivity].
Qed.

Theorem C15_reduce_max_signed n W mask x : (0 < W)%nat -> running W mask <> [] ->
  (forall l, In l (running W mask) -> - 2 ^ (n - 1) <= x l < 2 ^ (n - 1)) ->
  is_max (running_values W mask x) (reduce_max_s n W mask x).
Proof.
  intros HW Hr Hx. apply vreduce_max_ok; trivial.
  - intros l Hl M. specialize (Hx l ltac:(apply in_running; auto)). lia.
  - destruct (running W mask) as [|l r]; [congruence|exists l; left; reflexivity].
Qed.

Theorem C15_reduce_max_unsigned n W mask x : (0 < W)%nat -> running W mask <> [] ->
  (forall l, In l (running W mask) -> 0 <= x l < 2 ^ n) ->
  is_max (running_values W mask x) (reduce_max_u n W mask x).
Proof.
  intros HW Hr Hx. apply vreduce_max_ok; trivial.
  - intros l Hl M. specialize (Hx l ltac:(apply in_running; auto)). lia.
  - destruct (running W mask) as [|l r]; [congruence|exists l; left; reflexivity].
Qed.

(** Float minimum/maximum: correct as soon as one running instance holds a number. *)
Theorem C15_reduce_min_float_partial W mask x : (0 < W)%nat ->
  (exists l, In l (running W mask) /\ x l <> S754_nan) ->
  is_fmin (running_values W mask x) (reduce_min_f W mask x).
Proof. apply reduce_min_f_ok. Qed.

Theorem C15_reduce_max_float_partial W mask x : (0 < W)%nat ->
  (exists l, In l (running W mask) /\ x l <> S754_nan) ->
  is_fmax (running_values W mask x) (reduce_max_f W mask x).
Proof. apply reduce_max_f_ok. Qed.

(** When every running instance holds a NaN the answer depends on whether other lanes are off: the
    off lanes' infinity is returned, which no running instance holds. *)
Theorem C15_reduce_min_all_nan_refuted :
  exists W mask x, running W mask <> [] /\
    ~ In (reduce_min_f W mask x) (running_values W mask x) /\
    (forall l, In l (running W mask) -> x l = S754_nan).
Proof.
  exists 4%nat, (fun l => Nat.ltb l 2), (fun _ => S754_nan). split; [discriminate|]. split.
  - vm_compute. intros [H|[H|[]]]; discriminate.
  - reflexivity.
Qed.

(** Float sum: the running instances' values added in index order (the sign of a zero result may
    differ, because off lanes contribute +0). *)
Theorem C15_reduce_add_float prec emax W mask x :
  same_up_to_zero_sign (reduce_add_f prec emax W mask x) (float_total prec emax (running_values W mask x)).
Proof. apply reduce_add_f_ok. Qed.

(** reduce_equal with a non-empty set of running instances: true, with the first running instance's
    value stored, exactly when they all hold equal values.  [eqb] is the == of the element type
    (integers; for floats NaN <> NaN, so a single NaN lane gives false). *)
Theorem C15_reduce_equal {A} (eqb : A -> A -> bool) W mask x f rest : (W <= 64)%nat ->
  (forall a b, eqb a b = eqb b a) -> (forall a b c, eqb a b = true -> eqb b c = true -> eqb a c = true) ->
  running W mask = f :: rest ->
  (reduce_equal eqb W mask x = Equal (x f) /\ all_equal eqb (running_values W mask x)) \/
  (reduce_equal eqb W mask x = NotEqual /\ ~ all_equal eqb (running_values W mask x)).
Proof. intros. eapply reduce_equal_ok; eauto. Qed.

Theorem C15_reduce_equal_m4 {A} (eqb : A -> A -> bool) cyclic W mask x f rest : (2 <= W <= 64)%nat ->
  (forall a b, eqb a b = eqb b a) -> (forall a b c, eqb a b = true -> eqb b c = true -> eqb a c = true) ->
  running W mask = f :: rest ->
  (exists v, reduce_equal_m4 eqb cyclic W mask x = Equal v /\
             all_equal eqb (running_values W mask x) /\ eqb v (x f) = true) \/
  (reduce_equal_m4 eqb cyclic W mask x = NotEqual /\ ~ all_equal eqb (running_values W mask x)).
Proof. intros. eapply reduce_equal_m4_ok; eauto. Qed.

(** The documentation (docs/ispc.rst:6845) promises false when no instance is running; the code reads
    lane 64 of the vector instead, for every gang size. *)
Theorem C15_reduce_equal_none_running_refuted {A} (eqb : A -> A -> bool) W (x : nat -> A) : (W <= 64)%nat ->
  reduce_equal eqb W (fun _ => false) x = Poison.
Proof.
  intros HW. apply reduce_equal_none; [assumption|]. apply filter_seq_false. reflexivity.
Qed.

(** The one-argument form lets the builtin store sizeof(T) bytes into a one-byte variable: undefined
    whenever the lanes agree and the type is wider than a byte. *)
Theorem C15_reduce_equal_novalue_refuted :
  exists W mask x, running W mask <> [] /\ all_equal Z.eqb (running_values W mask x) /\
    reduce_equal_novalue 4 (reduce_equal Z.eqb W mask x) = None.
Proof.
  exists 4%nat, (fun l => Nat.ltb l 2), (fun _ => 7). split; [discriminate|]. split; [|reflexivity].
  intros a b Ha Hb. cbn in Ha, Hb. intuition (subst; reflexivity).
Qed.

(** For one-byte types, or when the lanes differ, it is right. *)
Theorem C15_reduce_equal_novalue_partial {A} (eqb : A -> A -> bool) size W mask x f rest : (W <= 64)%nat ->
  (forall a b, eqb a b = eqb b a) -> (forall a b c, eqb a b = true -> eqb b c = true -> eqb a c = true) ->
  running W mask = f :: rest -> (size <= 1 \/ ~ all_equal eqb (running_values W mask x)) ->
  exists b, reduce_equal_novalue size (reduce_equal eqb W mask x) = Some b /\
            (b = true <-> all_equal eqb (running_values W mask x)).
Proof.
  intros HW Hs Ht Hr Hc.
  destruct (reduce_equal_ok eqb W mask x HW Hs Ht f rest Hr) as [[-> H]|[-> H]]; cbn.
  - destruct Hc as [Hc|Hc]; [|contradiction]. rewrite (proj2 (Z.leb_le _ _) Hc). exists true. tauto.
  - exists false. split; [reflexivity|]. split; [discriminate|]. intros K. contradiction.
Qed.

(* lanes 1 and 3 of 4 running *)
Definition odd_mask (l : nat) : bool := Nat.odd l.
Example C15_example :
  running 4 odd_mask = [1; 3]%nat /\
  reduce_add_s 8 4 odd_mask (fun l => 40 * Z.of_nat l) = -96 /\
  reduce_min_s 8 4 odd_mask (fun l => 40 * Z.of_nat l - 100) = -60 /\
  reduce_max_u 8 4 odd_mask (fun l => 40 * Z.of_nat l) = 120 /\
  reduce_equal Z.eqb 4 odd_mask (fun l => if Nat.odd l then 5 else Z.of_nat l) = Equal 5 /\
  all 4 odd_mask Nat.odd = true /\ any 4 odd_mask Nat.even = false.
Proof. repeat split; reflexivity. Qed.

(** ** C16: exclusive scans give each instance the combination of the running instances before it. *)

Theorem C16_exclusive_scan_add n W mask v l : 0 < n -> (l < W)%nat ->
  is_wrap_s n (total (running_values l mask v)) (exclusive_scan_add n W mask v l).
Proof. apply exclusive_scan_add_ok. Qed.

Theorem C16_exclusive_scan_and W mask v l : (l < W)%nat ->
  exclusive_scan_and W mask v l = fold_left Z.land (running_values l mask v) (-1).
Proof. apply exclusive_scan_and_ok. Qed.

Theorem C16_exclusive_scan_or W mask v l : (l < W)%nat ->
  exclusive_scan_or W mask v l = fold_left Z.lor (running_values l mask v) 0.
Proof. apply exclusive_scan_or_ok. Qed.

Theorem C16_exclusive_scan_add_float prec emax W mask v l : (l < W)%nat ->
  same_up_to_zero_sign (exclusive_scan_add_f prec emax W mask v l)
                       (float_total prec emax (running_values l mask v)).
Proof. apply exclusive_scan_add_f_ok. Qed.

(** The implementation used by the older targets returns the same values. *)
Theorem C16_m4_scans_agree W mask l : (l < W)%nat ->
  (forall n v, exclusive_scan_m4 (fun a b => wraps n (a + b)) 0 W mask v l = exclusive_scan_add n W mask v l) /\
  (forall v, exclusive_scan_m4 Z.land (-1) W mask v l = exclusive_scan_and W mask v l) /\
  (forall v, exclusive_scan_m4 Z.lor 0 W mask v l = exclusive_scan_or W mask v l) /\
  (forall p e v, exclusive_scan_m4 (SFadd p e) (S754_zero false) W mask v l = exclusive_scan_add_f p e W mask v l).
Proof.
  intros Hl. repeat split; intros; apply exclusive_scan_m4_same; trivial; intros.
  - rewrite Z.add_comm; reflexivity.
  - apply Z.land_comm.
  - apply Z.lor_comm.
  - apply SFadd_comm.
Qed.

Example C16_example :
  map (exclusive_scan_add 32 4 odd_mask (fun l => Z.of_nat l + 10)) (seq 0 4) = [0; 0; 11; 11] /\
  map (exclusive_scan_and 4 odd_mask (fun l => Z.of_nat l + 10)) (seq 0 4) = [-1; -1; 11; 11].
Proof. split; reflexivity. Qed.

(** ** C17: lane permutations. *)

Theorem C17_broadcast {A} W (v : nat -> A) i : 0 <= i < Z.of_nat W ->
  exists r, broadcast W v i = Some r /\ forall l, r l = v (Z.to_nat i).
Proof.
  intros H. unfold broadcast. rewrite extract_in by assumption. eexists. split; reflexivity.
Qed.

(** rotate, in all three implementations, for every offset; the gang size is a power of two. *)
Theorem C17_rotate_memory {A} k (v : nat -> A) i l : (l < 2 ^ k)%nat ->
  rotate_mem (2 ^ k) v i l = Some (v (Z.to_nat ((Z.of_nat l + i) mod Z.of_nat (2 ^ k)))).
Proof. apply rotate_mem_ok. Qed.

Theorem C17_rotate_constant {A} k (v : nat -> A) i l : (k <= 32)%nat -> (l < 2 ^ k)%nat ->
  rotate_const (2 ^ k) v i l = Some (v (Z.to_nat ((Z.of_nat l + i) mod Z.of_nat (2 ^ k)))).
Proof. apply rotate_const_ok. Qed.

Theorem C17_rotate_via_shuffle {A} W (v : nat -> A) i l : In W [4; 8; 16; 32; 64]%nat -> (l < W)%nat ->
  rotate_via_shuffle W v i l = Some (v (Z.to_nat ((Z.of_nat l + i) mod Z.of_nat W))).
Proof. apply rotate_via_shuffle_ok. Qed.

(** shift: the shuffle implementation is right for every 32-bit offset, the memory implementation for
    offsets of at most the gang size in either direction. *)
Theorem C17_shift_via_shuffle {A} (zero : A) W v i l : (W <= 64)%nat -> (l < W)%nat ->
  - 2 ^ 31 <= i < 2 ^ 31 ->
  shift_via_shuffle zero W v i l =
    Some (if (0 <=? Z.of_nat l + i) && (Z.of_nat l + i <? Z.of_nat W)
          then v (Z.to_nat (Z.of_nat l + i)) else zero).
Proof. intros. apply shift_via_shuffle_ok; trivial. Qed.

Theorem C17_shift_memory_partial {A} (zero : A) W v i l : (W <= 64)%nat -> (l < W)%nat ->
  - Z.of_nat W <= i <= Z.of_nat W ->
  shift_mem zero W v i l =
    Some (if (0 <=? Z.of_nat l + i) && (Z.of_nat l + i <? Z.of_nat W)
          then v (Z.to_nat (Z.of_nat l + i)) else zero).
Proof. apply shift_mem_ok. Qed.

(** Beyond that it reads outside its temporary for every offset. *)
Theorem C17_shift_memory_out_of_bounds_refuted {A} (zero : A) W v i : (0 < W <= 64)%nat ->
  - 2 ^ 31 <= i < 2 ^ 31 -> i < - Z.of_nat W \/ Z.of_nat W < i ->
  exists l, (l < W)%nat /\ shift_mem zero W v i l = None.
Proof. intros. apply shift_mem_oob; trivial. Qed.

Theorem C17_shuffle {A} W (v : nat -> A) perm l : 0 <= perm l < Z.of_nat W ->
  shuffle W v perm l = Some (v (Z.to_nat (perm l))).
Proof. intros. apply extract_in. assumption. Qed.

Theorem C17_shuffle2 {A} W (v0 v1 : nat -> A) perm l : 0 <= perm l < 2 * Z.of_nat W ->
  shuffle2 W v0 v1 perm l =
    Some (if perm l <? Z.of_nat W then v0 (Z.to_nat (perm l)) else v1 (Z.to_nat (perm l - Z.of_nat W))).
Proof.
  intros H. unfold shuffle2. rewrite extract_in by lia. f_equal. unfold concat.
  destruct (Z.ltb_spec (perm l) (Z.of_nat W)), (Nat.ltb_spec (Z.to_nat (perm l)) W); try lia; trivial.
  f_equal. lia.
Qed.

Example C17_example :
  map (rotate_mem 8 (fun l => Z.of_nat l + 1) (-1)) (seq 0 8) = map Some [8; 1; 2; 3; 4; 5; 6; 7] /\
  map (rotate_via_shuffle 8 (fun l => Z.of_nat l + 1) 17) (seq 0 8) = map Some [2; 3; 4; 5; 6; 7; 8; 1] /\
  map (shift_mem 0 4 (fun l => Z.of_nat l + 1) (-1)) (seq 0 4) = map Some [0; 1; 2; 3] /\
  map (shift_via_shuffle 0 4 (fun l => Z.of_nat l + 1) 6) (seq 0 4) = map Some [0; 0; 0; 0] /\
  shift_mem 0 4 (fun l => Z.of_nat l + 1) 6 3%nat = None.
Proof. repeat split; reflexivity. Qed.

(** ** C18: packed stores and loads. *)

Theorem C18_packed_store_active W mask v p m : (W <= 64)%nat ->
  let '(m', n) := packed_store_active W mask v p m in
  n = Z.of_nat (length (running W mask)) /\
  holds_at m' p (running_values W mask v) /\ unchanged_outside m m' p n.
Proof. apply packed_store_ok. Qed.

(** packed_store_active2 may write one more element, as documented (docs/ispc.rst:7033). *)
Theorem C18_packed_store_active2 mb known W mask v p m : (W <= 64)%nat -> 7 <= mb ->
  let '(m', n) := packed_store_active2 mb known W mask v p m in
  n = Z.of_nat (length (running W mask)) /\
  holds_at m' p (running_values W mask v) /\ unchanged_outside m m' p (n + 1).
Proof.
  intros HW Hmb. apply packed_store2_ok; trivial; [lia|].
  assert (2 ^ 7 <= 2 ^ mb) by (apply Z.pow_le_mono_r; lia). change (2 ^ 7) with 128 in *. lia.
Qed.

Theorem C18_packed_load_active W mask p m old : (W <= 64)%nat ->
  let '(r, n) := packed_load_active W mask p m old in
  n = Z.of_nat (length (running W mask)) /\
  (forall k, (k < length (running W mask))%nat -> r (nth k (running W mask) O) = m (p + Z.of_nat k)) /\
  (forall l, mask l = false -> r l = old l).
Proof.
  intros HW. pose proof (packed_load_ok W mask p m old HW) as H.
  destruct (packed_load_active W mask p m old) as [r n]. destruct H as (A & B & C).
  split; [assumption|]. split; [|assumption]. intros k Hk.
  assert (Hin : In (nth k (running W mask) O) (running W mask)) by (apply nth_In; assumption).
  apply in_running in Hin. destruct Hin as [H1 H2]. rewrite B by assumption.
  f_equal. f_equal. f_equal.
  destruct (rank_nth mask W _ H1 H2) as [R1 R2].
  apply (proj1 (NoDup_nth (running W mask) O)); trivial.
  apply NoDup_filter, seq_NoDup.
Qed.

Theorem C18_store_then_load W mask v p m old l : (W <= 64)%nat -> (l < W)%nat ->
  fst (packed_load_active W mask p (fst (packed_store_active W mask v p m)) old) l = if mask l then v l else old l.
Proof. intros. apply packed_roundtrip; trivial. Qed.

(** packed_store_active(active, a, v) uses [active] instead of the execution mask: an instance that is
    not running but has [active] set writes memory. *)
Theorem C18_store_with_lanes_ignores_mask_refuted :
  exists W mask active v p m, running W mask = [0%nat] /\
    packed_store_active_lanes W mask active v p m <> packed_store_active W (fun l => mask l && active l) v p m /\
    snd (packed_store_active_lanes W mask active v p m) = 2.
Proof.
  exists 4%nat, (fun l => Nat.eqb l 0), (fun l => Nat.ltb l 2), (fun _ => 9), 0, (fun _ => 0).
  split; [reflexivity|]. split; [|reflexivity]. intros H.
  apply (f_equal snd) in H. vm_compute in H. discriminate.
Qed.

Theorem C18_store_with_lanes_partial W mask active v p m : (W <= 64)%nat ->
  (forall l, (l < W)%nat -> active l = true -> mask l = true) ->
  let '(m', n) := packed_store_active_lanes W mask active v p m in
  n = Z.of_nat (length (filter active (running W mask))) /\
  holds_at m' p (map v (filter active (running W mask))) /\ unchanged_outside m m' p n.
Proof.
  intros HW Ha. unfold packed_store_active_lanes.
  replace (filter active (running W mask)) with (running W active).
  - apply packed_store_ok, HW.
  - unfold running. assert (G : forall l, (forall i, In i l -> active i = true -> mask i = true) ->
      filter active l = filter active (filter mask l)).
    { induction l as [|i l IH]; intros H; cbn [filter]; [reflexivity|].
      specialize (IH ltac:(intros; apply H; [right|]; assumption)).
      destruct (active i) eqn:E, (mask i) eqn:M; cbn [filter]; rewrite ?E; try congruence.
      rewrite (H i) in M; [discriminate|left; reflexivity|assumption]. }
    apply G. intros i Hi. apply in_seq in Hi. apply Ha. lia.
Qed.

Example C18_example :
  let '(m, n) := packed_store_active 4 odd_mask (fun l => 100 + Z.of_nat l) 10 (fun a => a) in
  n = 2 /\ map m [9; 10; 11; 12] = [9; 101; 103; 12].
Proof. split; reflexivity. Qed.

(** ** C26: structure-of-arrays conversions (n = 2, 3, 4 in the library). *)

Theorem C26_aos_to_soa n W p m k l : (l < W)%nat ->
  aos_to_soa n W p m k l = m (p + Z.of_nat (n * l + k)).
Proof. apply aos_to_soa_ok. Qed.

Theorem C26_soa_to_aos n W v p m : (0 < n)%nat ->
  (forall k l, (k < n)%nat -> (l < W)%nat -> soa_to_aos n W v p m (p + Z.of_nat (n * l + k)) = v k l) /\
  unchanged_outside m (soa_to_aos n W v p m) p (Z.of_nat (n * W)).
Proof. apply soa_to_aos_ok. Qed.

Theorem C26_soa_aos_soa n W v p m k l : (k < n)%nat -> (l < W)%nat ->
  aos_to_soa n W p (soa_to_aos n W v p m) k l = v k l.
Proof. intros. rewrite aos_to_soa_ok by assumption. apply soa_to_aos_ok; trivial; lia. Qed.

Theorem C26_aos_soa_aos n W p m a : (0 < n)%nat ->
  soa_to_aos n W (aos_to_soa n W p m) p m a = m a.
Proof.
  intros Hn. destruct (soa_to_aos_ok n W (aos_to_soa n W p m) p m Hn) as [A B].
  destruct (Z.lt_ge_cases a p) as [L|L]; [apply B; lia|].
  destruct (Z.lt_ge_cases a (p + Z.of_nat (n * W))) as [L2|L2]; [|apply B; lia].
  pose (i := Z.to_nat (a - p)).
  assert (E : i = (n * (i / n) + i mod n)%nat) by (apply Nat.div_mod; lia).
  assert (Hd : (i / n < W)%nat) by (apply Nat.div_lt_upper_bound; lia).
  assert (Hm : (i mod n < n)%nat) by (apply Nat.mod_upper_bound; lia).
  replace a with (p + Z.of_nat (n * (i / n) + i mod n)) by lia.
  rewrite A, aos_to_soa_ok by assumption. reflexivity.
Qed.

Example C26_example :
  map (aos_to_soa 3 4 100 (fun a => a) 1) (seq 0 4) = [101; 104; 107; 110] /\
  map (soa_to_aos 2 2 (fun k l => Z.of_nat (10 * k + l)) 0 (fun _ => -1)) [-1; 0; 1; 2; 3; 4] = [-1; 0; 10; 1; 11; -1].
Proof. split; reflexivity. Qed.

Print Assumptions C15_reduce_add_signed.
Print Assumptions C15_reduce_min_float_partial.
Print Assumptions C15_reduce_equal_m4.
Print Assumptions C16_exclusive_scan_add_float.
Print Assumptions C17_rotate_via_shuffle.
Print Assumptions C17_shift_via_shuffle.
Print Assumptions C18_store_then_load.
Print Assumptions C18_packed_store_active2.
Print Assumptions C26_aos_soa_aos.
