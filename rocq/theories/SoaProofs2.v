(** Proofs about arrays of SOA structures: addresses. *)
From Coq Require Import ZArith List Bool Lia.
From Verif Require Import Bits SoaModel SoaSpec SoaProofs.
Import ListNotations.
Open Scope Z_scope.

Lemma log_width_pow2 : forall fuel k, (k < fuel)%nat -> log_width fuel (2 ^ Z.of_nat k) = Z.of_nat k.
Proof.
  induction fuel as [|fuel IH]; intros k Hk; [lia|]. cbn [log_width].
  destruct k as [|k].
  - now cbn.
  - rewrite Nat2Z.inj_succ, Z.pow_succ_r by lia.
    pose proof (pow2_pos (Z.of_nat k) ltac:(lia)).
    destruct (Z.ltb_spec 1 (2 * 2 ^ Z.of_nat k)); [|lia].
    replace (Z.shiftr (2 * 2 ^ Z.of_nat k) 1) with (2 ^ Z.of_nat k).
    + rewrite IH by lia. lia.
    + rewrite Z.shiftr_div_pow2 by lia. change (2 ^ 1) with 2.
      rewrite Z.mul_comm, Z.div_mul; lia.
Qed.

Lemma width_pow w : width_ok w -> exists k, 0 <= k <= 30 /\ Z.of_nat w = 2 ^ k /\ log_width 31 (Z.of_nat w) = k.
Proof.
  intros (k & Hk & ->). exists (Z.of_nat k). split; [lia|].
  assert (E : Z.of_nat (2 ^ k) = 2 ^ Z.of_nat k) by (rewrite Nat2Z.inj_pow; reflexivity).
  split; [easy|]. rewrite E. apply log_width_pow2. lia.
Qed.

Lemma width_pos w : width_ok w -> 0 < Z.of_nat w <= 2 ^ 30.
Proof.
  intros H. destruct (width_pow w H) as (k & Hk & -> & _). split; [apply pow2_pos; lia|].
  apply Z.pow_le_mono_r; lia.
Qed.

Lemma slice_index_div k w i off : width_ok w ->
  in_s (ibits k) i -> in_s (ibits k) (i + off) ->
  compute_slice_index k (Z.of_nat w) i off = ((i + off) mod Z.of_nat w, (i + off) / Z.of_nat w).
Proof.
  intros Hw Hi Hs. destruct (width_pow w Hw) as (n & Hn & En & El).
  unfold compute_slice_index. rewrite El.
  assert (Hb : 0 < ibits k) by (destruct k; cbn; lia).
  rewrite (wraps_id _ i), (wraps_id _ (i + off)) by easy.
  f_equal.
  - rewrite En. replace (2 ^ n - 1) with (Z.ones n) by (rewrite Z.ones_equiv; lia).
    now rewrite Z.land_ones by lia.
  - rewrite Z.shiftr_div_pow2 by lia. now rewrite En.
Qed.

Lemma bits_cases k : ibits k = 32 /\ (k = KVarI32 \/ k = KVarU32) \/ ibits k = 64 /\ (k = KUni \/ k = KVar64).
Proof. destruct k; cbn; auto. Qed.

(** Indices of access expressions. *)
Lemma extend_id k i : index_in_type (AIdx k i) -> extend k i = i.
Proof.
  destruct k; cbn; intros H; try (apply wraps_id; [lia|]; unfold in_s; lia).
  apply wrapu_id. unfold in_u. lia.
Qed.

Lemma index_in_s k i : index_in_type (AIdx k i) -> in_s (ibits k) i.
Proof. destruct k; cbn; unfold in_s; lia. Qed.

Lemma index_div_in_type k i w : 0 < w -> index_in_type (AIdx k i) -> index_in_type (AIdx k (i / w)).
Proof.
  intros Hw. assert (D : 0 <= i -> 0 <= i / w <= i).
  { intros Hi. split; [apply Z.div_pos; lia|]. apply Z.div_le_upper_bound; nia. }
  destruct k; cbn; lia.
Qed.

Lemma in_space a : 0 <= a < 2 ^ 64 -> wrapu 64 a = a.
Proof. intros H. apply wrapu_id. exact H. Qed.

(** The element of the array. *)
Definition elem_addr (w : nat) (t : sty) (base i : Z) : Z :=
  base + i / Z.of_nat w * sizeof (llvm_type w t).

Lemma elem_bounds w n t base i : array_ok w n t base -> 0 <= i < Z.of_nat n * Z.of_nat w ->
  0 <= i / Z.of_nat w < Z.of_nat n /\ 0 <= i mod Z.of_nat w < Z.of_nat w /\
  base <= elem_addr w t base i /\
  elem_addr w t base i + sizeof (llvm_type w t) <= base + Z.of_nat n * sizeof (llvm_type w t) < 2 ^ 64.
Proof.
  intros (Hw & Hok & _ & Hb & Hs) Hi. rewrite declared_llvm in Hs.
  pose proof (width_pos w Hw) as Hp.
  assert (Hd : 0 <= i / Z.of_nat w < Z.of_nat n).
  { split; [apply Z.div_pos; lia|]. apply Z.div_lt_upper_bound; lia. }
  pose proof (Z.mod_pos_bound i (Z.of_nat w) ltac:(lia)).
  pose proof (sizeof_nonneg _ (llvm_type_ok w t Hok)) as S0.
  unfold elem_addr. repeat split; try lia; try nia.
Qed.

Lemma eval_cons w l a r : eval w l (a :: r) =
  match step w (Some l) a with Some l' => eval w l' r | None => None end.
Proof.
  unfold eval. cbn [fold_left]. destruct (step w (Some l) a); [easy|].
  clear. induction r; cbn; auto.
Qed.

Lemma first_index w n t base k i : array_ok w n t base -> 0 <= i < Z.of_nat n * Z.of_nat w ->
  index_in_type (AIdx k i) ->
  index_array k w (lvar base (SArr n t)) i =
    Some (LVal (elem_addr w t base i) (i mod Z.of_nat w) PSlice t).
Proof.
  intros Ha Hi Hk. destruct (elem_bounds w n t base i Ha Hi) as (B1 & B2 & B3 & B4).
  destruct Ha as (Hw & Hok & _ & Hb & Hs).
  unfold index_array, lvar, slice_gep. cbn [lty lprop la loff].
  rewrite (slice_index_div k w i 0 Hw) by (try rewrite Z.add_0_r; now apply index_in_s).
  rewrite Z.add_0_r. rewrite extend_id by (apply index_div_in_type; [lia|easy]).
  f_equal. f_equal. unfold gep. apply in_space.
  pose proof (sizeof_nonneg _ (llvm_type_ok w t Hok)). fold (elem_addr w t base i). lia.
Qed.

(** Members and elements of members. *)
Lemma eval_parts w : forall as_ l u,
  lprop l <> PNone ->
  (lprop l = PFrozen \/ match as_ with AIdx _ _ :: _ => False | _ => True end) ->
  single_index as_ = true -> Forall index_in_type as_ ->
  type_ok (lty l) = true -> type_at (lty l) (parts_of as_) = Some u ->
  0 <= la l -> la l + sizeof (llvm_type w (lty l)) < 2 ^ 64 ->
  exists p, p <> PNone /\
    eval w l as_ = Some (LVal (la l + place (llvm_type w (lty l)) (parts_of as_)) (loff l) p u).
Proof.
  induction as_ as [|x r IH]; intros l u Hp Hf Hs Hi Hok Et H0 H1.
  - cbn in Et. injection Et as <-. exists (lprop l). split; [easy|]. cbn. rewrite Z.add_0_r. now destruct l.
  - inversion Hi as [|? ? Hx Hr]; subst. rewrite eval_cons. cbn [step].
    destruct l as [addr off pr t]. cbn [lprop la loff lty] in *.
    destruct x as [k i|k]; cbn [parts_of map part_of type_at] in Et; destruct t as [|n e|fs]; try discriminate.
    + destruct Hf as [->|[]].
      destruct (_ && _) eqn:Ei in Et; [|discriminate]. apply andb_prop in Ei as [Ei1 Ei2].
      apply Z.leb_le in Ei1. apply Z.ltb_lt in Ei2. cbn [type_ok] in Hok.
      unfold index_array, slice_gep. cbn [lty lprop la loff].
      rewrite extend_id by easy.
      pose proof (sizeof_nonneg _ (llvm_type_ok w e Hok)) as Se.
      cbn [llvm_type sizeof] in H1.
      assert (A : gep addr i (sizeof (llvm_type w e)) = addr + i * sizeof (llvm_type w e)).
      { unfold gep. apply in_space. nia. }
      rewrite A.
      destruct (IH (LVal (addr + i * sizeof (llvm_type w e)) off PSlice e) u) as (p & Hp' & E);
        cbn [lprop la loff lty]; auto; try easy.
      * right. destruct r as [|[k' i'|k'] r]; cbn in Hs; easy.
      * cbn [single_index] in Hs. destruct r as [|[]]; easy.
      * nia.
      * nia.
      * exists p. split; [easy|]. rewrite E. cbn [lprop la loff lty parts_of map part_of place llvm_type].
        f_equal. f_equal. unfold parts_of. lia.
    + destruct (nth_error fs k) as [f|] eqn:Ek; [|discriminate]. cbn [type_ok] in Hok.
      unfold member. cbn [lty lprop la loff]. rewrite Ek.
      assert (Hf' : type_ok f = true) by now apply nth_ok with fs k.
      assert (Em : nth_error (map (llvm_type w) fs) k = Some (llvm_type w f)) by now apply map_nth_error.
      assert (Hm : forallb type_ok (map (llvm_type w) fs) = true) by exact (llvm_type_ok w (SStruct fs) Hok).
      pose proof (field_in_struct _ k _ Hm Em) as B. cbn [llvm_type] in H1.
      pose proof (sizeof_nonneg _ (llvm_type_ok w f Hf')) as Se.
      rewrite in_space by lia.
      destruct (IH (LVal (addr + field_off (map (llvm_type w) fs) k) off
                      (match pr with PNone => PNone | _ => PFrozen end) f) u) as (p & Hp' & E);
        cbn [lprop la loff lty]; auto; try easy.
      * now destruct pr.
      * left. now destruct pr.
      * lia.
      * lia.
      * exists p. split; [easy|]. rewrite E. cbn [lprop la loff lty parts_of map part_of place llvm_type].
        rewrite Em. f_equal. f_equal. unfold parts_of. lia.
Qed.

(** An access to a part of an element. *)
Lemma eval_access w n t base k i r u : array_ok w n t base -> 0 <= i < Z.of_nat n * Z.of_nat w ->
  type_at t (parts_of r) = Some u -> Forall index_in_type (AIdx k i :: r) ->
  single_index (AIdx k i :: r) = true ->
  exists p, p <> PNone /\
    eval w (lvar base (SArr n t)) (AIdx k i :: r) =
    Some (LVal (elem_addr w t base i + place (llvm_type w t) (parts_of r)) (i mod Z.of_nat w) p u).
Proof.
  intros Ha Hi Et Hr Hs. inversion Hr as [|? ? Hk Hr']; subst.
  rewrite eval_cons. cbn [step]. rewrite (first_index w n t base k i Ha Hi Hk).
  destruct (elem_bounds w n t base i Ha Hi) as (B1 & B2 & B3 & B4).
  destruct Ha as (Hw & Hok & (fs & ->) & Hb & Hs').
  apply (eval_parts w r (LVal (elem_addr w (SStruct fs) base i) (i mod Z.of_nat w) PSlice (SStruct fs)) u);
    cbn [lprop la loff lty]; auto; try easy; try lia.
  - right. destruct r as [|[]]; auto. cbn in Et. discriminate.
  - destruct r as [|[]]; cbn in *; easy.
Qed.

Lemma soa_place_eq w t base i p s a : type_at t p = Some (SBasic s a) ->
  soa_place w t base i p = elem_addr w t base i + place (llvm_type w t) p + i mod Z.of_nat w * s.
Proof.
  intros E. unfold soa_place, elem_addr. rewrite declared_llvm. cbn [place].
  rewrite (place_app _ _ _ (SArr w (SBasic s a))) by exact (type_at_llvm w t p _ E).
  cbn [place sizeof]. lia.
Qed.

Lemma leaf_in_array w n t base i p s a : array_ok w n t base -> 0 <= i < Z.of_nat n * Z.of_nat w ->
  type_at t p = Some (SBasic s a) ->
  base <= soa_place w t base i p /\ 0 < s /\
  soa_place w t base i p + s <= base + Z.of_nat n * sizeof (llvm_type w t).
Proof.
  intros Ha Hi E. rewrite (soa_place_eq w t base i p s a E).
  destruct (elem_bounds w n t base i Ha Hi) as (B1 & B2 & B3 & B4).
  destruct Ha as (Hw & Hok & _ & Hb & Hs').
  pose proof (place_bounds _ p _ (llvm_type_ok w t Hok) (type_at_llvm w t p _ E)) as P.
  pose proof (type_at_ok t p _ Hok E) as Ho. cbn [type_ok] in Ho.
  apply andb_prop in Ho as [Ho _]. apply andb_prop in Ho as [_ Ho]. apply Z.ltb_lt in Ho.
  cbn [llvm_type sizeof] in P.
  assert ((i mod Z.of_nat w + 1) * s <= Z.of_nat w * s) by (apply Z.mul_le_mono_nonneg_r; lia).
  split; [nia|]. split; [lia|]. nia.
Qed.

Lemma slice_offset w o : width_ok w -> 0 <= o < Z.of_nat w -> wraps 32 o = o.
Proof.
  intros Hw Ho. pose proof (width_pos w Hw) as P. apply wraps_id; [lia|]. unfold in_s.
  change (2 ^ (32 - 1)) with (2 * 2 ^ 30). lia.
Qed.

Theorem address_ok w n t base k i r s a : array_ok w n t base -> 0 <= i < Z.of_nat n * Z.of_nat w ->
  type_at t (parts_of r) = Some (SBasic s a) -> Forall index_in_type (AIdx k i :: r) ->
  single_index (AIdx k i :: r) = true ->
  exists l, eval w (lvar base (SArr n t)) (AIdx k i :: r) = Some l /\
    leaf_address l = Some (soa_place w t base i (parts_of r)).
Proof.
  intros Ha Hi Et Hr Hs. destruct (eval_access w n t base k i r _ Ha Hi Et Hr Hs) as (p & Hp & E).
  eexists. split; [exact E|]. cbn [leaf_address lty la loff].
  pose proof (leaf_in_array w n t base i _ s a Ha Hi Et) as (L1 & L2 & L3).
  destruct (elem_bounds w n t base i Ha Hi) as (B1 & B2 & B3 & B4).
  rewrite (soa_place_eq w t base i _ s a Et) in *.
  f_equal. unfold apply_slice_offset, gep. destruct Ha as (Hw & Hok & _ & Hb & _).
  rewrite (slice_offset w) by easy. apply in_space. lia.
Qed.

Lemma app_inj_last {A} (p q : list A) x y : p ++ [x] = q ++ [y] -> p = q /\ x = y.
Proof. apply app_inj_tail. Qed.

(** Different parts of the elements do not overlap. *)
Theorem parts_disjoint w n t base i p s a j q s' a' : array_ok w n t base ->
  0 <= i < Z.of_nat n * Z.of_nat w -> 0 <= j < Z.of_nat n * Z.of_nat w ->
  type_at t p = Some (SBasic s a) -> type_at t q = Some (SBasic s' a') -> (i, p) <> (j, q) ->
  soa_place w t base i p + s <= soa_place w t base j q \/
  soa_place w t base j q + s' <= soa_place w t base i p.
Proof.
  intros Ha Hi Hj Ep Eq Hne.
  destruct (elem_bounds w n t base i Ha Hi) as (B1 & B2 & _).
  destruct (elem_bounds w n t base j Ha Hj) as (C1 & C2 & _).
  destruct Ha as (Hw & Hok & _ & Hb & _).
  assert (T : forall i p s a, 0 <= i / Z.of_nat w < Z.of_nat n -> 0 <= i mod Z.of_nat w < Z.of_nat w ->
      type_at t p = Some (SBasic s a) ->
      type_at (SArr n (llvm_type w t)) (Elt (i / Z.of_nat w) :: p ++ [Elt (i mod Z.of_nat w)]) = Some (SBasic s a)).
  { clear. intros i p s a H1 H2 E. cbn [type_at].
    replace (_ && _) with true by (symmetry; apply andb_true_iff; rewrite Z.leb_le, Z.ltb_lt; lia).
    rewrite type_at_app, (type_at_llvm w t p _ E). cbn.
    now replace (_ && _) with true by (symmetry; apply andb_true_iff; rewrite Z.leb_le, Z.ltb_lt; lia). }
  unfold soa_place. rewrite declared_llvm.
  change (place (SArr 1 (llvm_type w t))) with (place (SArr n (llvm_type w t))) || idtac.
  destruct (places_disjoint (SArr n (llvm_type w t))
              (Elt (i / Z.of_nat w) :: p ++ [Elt (i mod Z.of_nat w)])
              (Elt (j / Z.of_nat w) :: q ++ [Elt (j mod Z.of_nat w)]) s a s' a'
              (llvm_type_ok w t Hok) (T i p s a B1 B2 Ep) (T j q s' a' C1 C2 Eq)) as [D|D].
  - intros E. injection E as E1 E2. apply app_inj_last in E2 as [-> E2]. injection E2 as E2.
    apply Hne. f_equal.
    pose proof (width_pos w Hw). rewrite (Z.div_mod i (Z.of_nat w)), (Z.div_mod j (Z.of_nat w)) by lia.
    now rewrite E1, E2.
  - left. cbn [place] in *. lia.
  - right. cbn [place] in *. lia.
Qed.

(** * Pointer arithmetic *)

Lemma div_mod_plus i k w : 0 < w ->
  (k + i mod w) mod w = (i + k) mod w /\ (k + i mod w) / w + i / w = (i + k) / w.
Proof.
  intros Hw. pose proof (Z.div_mod i w ltac:(lia)) as E. split.
  - rewrite Z.add_mod_idemp_r by lia. f_equal; lia.
  - replace (i + k) with ((k + i mod w) + (i / w) * w) by lia.
    rewrite Z.div_add by lia. lia.
Qed.

(** The pointer to the element [i], which may be outside the array. *)
Definition elem_ptr (w : nat) (t : sty) (base i : Z) : lval :=
  LVal (wrapu 64 (elem_addr w t base i)) (i mod Z.of_nat w) PSlice t.

Lemma wrapu_add_l n x y : 0 <= n -> wrapu n (wrapu n x + y) = wrapu n (x + y).
Proof. intros Hn. unfold wrapu. pose proof (pow2_pos n Hn). rewrite Z.add_mod_idemp_l; lia. Qed.

Theorem pointer_add_ok k w t base i d : width_ok w -> ibits k = 64 ->
  - 2 ^ 62 <= d < 2 ^ 62 ->
  pointer_add k w (elem_ptr w t base i) d = elem_ptr w t base (i + d).
Proof.
  intros Hw Hk Hd. unfold pointer_add, elem_ptr, slice_gep. cbn [lprop la loff lty].
  pose proof (width_pos w Hw) as P. pose proof (Z.mod_pos_bound i (Z.of_nat w) ltac:(lia)) as M.
  assert (N : 2 ^ 30 < 2 ^ 62) by reflexivity.
  rewrite (slice_index_div k w d (i mod Z.of_nat w) Hw) by (rewrite Hk; unfold in_s; cbn; lia).
  destruct (div_mod_plus i d (Z.of_nat w) ltac:(lia)) as [D1 D2].
  rewrite D1. f_equal. unfold gep. rewrite wrapu_add_l by lia. unfold elem_addr. f_equal.
  assert (X : extend k ((d + i mod Z.of_nat w) / Z.of_nat w) = (d + i mod Z.of_nat w) / Z.of_nat w).
  { assert (R : - 2 ^ 62 <= (d + i mod Z.of_nat w) / Z.of_nat w < 2 ^ 63).
    { split.
      - apply Z.div_le_lower_bound; [lia|]. nia.
      - apply Z.div_lt_upper_bound; [lia|]. change (2 ^ 63) with (2 * 2 ^ 62). nia. }
    destruct (bits_cases k) as [[E _]|[_ [-> | ->]]]; [lia| |]; cbn [extend]; apply wraps_id; try lia;
      unfold in_s; change (2 ^ (64 - 1)) with (2 * 2 ^ 62) in *; change (2 ^ 63) with (2 * 2 ^ 62) in *; lia. }
  rewrite X. lia.
Qed.

Theorem pointer_sub_ok k w t base i d : width_ok w -> ibits k = 64 ->
  - 2 ^ 62 < d < 2 ^ 62 ->
  pointer_sub k w (elem_ptr w t base i) d = elem_ptr w t base (i - d).
Proof.
  intros Hw Hk Hd. unfold pointer_sub. rewrite Hk.
  rewrite (wraps_id 64 d), (wraps_id 64 (0 - d)) by (try lia; unfold in_s; change (2 ^ (64 - 1)) with (2 * 2 ^ 62); lia).
  rewrite pointer_add_ok by (try easy; lia). f_equal; lia.
Qed.

Theorem pointer_diff_ok w n t base i j : array_ok w n t base -> 0 < sizeof (declared w t) ->
  Z.of_nat n * sizeof (declared w t) < 2 ^ 63 -> Z.of_nat n * Z.of_nat w < 2 ^ 63 ->
  0 <= i < Z.of_nat n * Z.of_nat w -> 0 <= j < Z.of_nat n * Z.of_nat w ->
  pointer_diff w (elem_ptr w t base i) (elem_ptr w t base j) = i - j.
Proof.
  intros Ha Hs Hn Hnw Hi Hj. rewrite declared_llvm in *.
  destruct (elem_bounds w n t base i Ha Hi) as (B1 & B2 & B3 & B4).
  destruct (elem_bounds w n t base j Ha Hj) as (C1 & C2 & C3 & C4).
  destruct Ha as (Hw & Hok & _ & Hb & _). pose proof (width_pos w Hw) as P.
  unfold pointer_diff, elem_ptr. cbn [la loff lty]. rewrite !in_space by lia.
  set (sz := sizeof (llvm_type w t)) in *.
  assert (D : elem_addr w t base i - elem_addr w t base j = (i / Z.of_nat w - j / Z.of_nat w) * sz)
    by (unfold elem_addr; fold sz; lia).
  rewrite D.
  rewrite (wraps_id 64 ((_ - _) * sz)).
  2: lia.
  2: { unfold in_s. change (2 ^ (64 - 1)) with (2 ^ 63).
       assert (i / Z.of_nat w * sz <= Z.of_nat n * sz) by nia.
       assert (j / Z.of_nat w * sz <= Z.of_nat n * sz) by nia. nia. }
  rewrite Z.quot_mul by lia.
  pose proof (Z.div_mod i (Z.of_nat w) ltac:(lia)) as Ei. pose proof (Z.div_mod j (Z.of_nat w) ltac:(lia)) as Ej.
  assert (0 <= i / Z.of_nat w * Z.of_nat w <= i) by nia.
  assert (0 <= j / Z.of_nat w * Z.of_nat w <= j) by nia.
  rewrite (wraps_id 64 ((_ - _) * Z.of_nat w)) by (try lia; unfold in_s; change (2 ^ (64 - 1)) with (2 ^ 63); nia).
  rewrite (wraps_id 32) by (try lia; unfold in_s; change (2 ^ (32 - 1)) with (2 * 2 ^ 30); lia).
  rewrite wraps_id; [nia|lia|unfold in_s; change (2 ^ (64 - 1)) with (2 ^ 63); nia].
Qed.

Lemma elem_index_ptr w n t base k i : array_ok w n t base -> 0 <= i < Z.of_nat n * Z.of_nat w ->
  index_in_type (AIdx k i) ->
  eval w (lvar base (SArr n t)) [AIdx k i] = Some (elem_ptr w t base i).
Proof.
  intros Ha Hi Hk. rewrite eval_cons. cbn [step]. rewrite (first_index w n t base k i Ha Hi Hk).
  cbn [eval fold_left]. unfold elem_ptr. destruct (elem_bounds w n t base i Ha Hi) as (B1 & B2 & B3 & B4).
  destruct Ha as (Hw & Hok & _ & Hb & _).
  pose proof (sizeof_nonneg _ (llvm_type_ok w t Hok)).
  unfold eval. cbn [fold_left]. rewrite in_space by lia. reflexivity.
Qed.
