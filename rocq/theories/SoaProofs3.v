(** Proofs about arrays of SOA structures: loads and stores. *)
From Coq Require Import ZArith List Bool Lia.
From Verif Require Import Bits SoaModel SoaSpec SoaProofs SoaProofs2.
Import ListNotations.
Open Scope Z_scope.

(** * Values *)

Lemma val_ok_arr n e vs : val_ok (SArr n e) (VColl vs) <-> length vs = n /\ Forall (val_ok e) vs.
Proof.
  cbn [val_ok]. apply and_iff_compat_l. induction vs as [|v r IH].
  - split; auto.
  - rewrite IH. split; [intros [H1 H2]; now constructor|intros H; now inversion H].
Qed.

Lemma val_ok_struct fs vs : val_ok (SStruct fs) (VColl vs) <-> Forall2 val_ok fs vs.
Proof.
  cbn [val_ok]. revert vs. induction fs as [|f fr IH]; intros [|v vr].
  - split; auto.
  - split; [intros []|intros H; inversion H].
  - split; [intros []|intros H; inversion H].
  - rewrite IH. split; [intros [H1 H2]; now constructor|intros H; now inversion H].
Qed.

Lemma val_ok_coll n e v : val_ok (SArr n e) v -> exists vs, v = VColl vs.
Proof. destruct v; cbn; [intros []|eauto]. Qed.

Lemma val_ok_coll' fs v : val_ok (SStruct fs) v -> exists vs, v = VColl vs.
Proof. destruct v; cbn; [intros []|eauto]. Qed.

Lemma val_ok_basic s a v : val_ok (SBasic s a) v -> exists bs, v = VBytes bs /\ Z.of_nat (length bs) = s.
Proof. destruct v; cbn; [eauto|intros []]. Qed.

Lemma Forall2_nth {A B} (R : A -> B -> Prop) l1 l2 k x : Forall2 R l1 l2 -> nth_error l1 k = Some x ->
  exists y, nth_error l2 k = Some y /\ R x y.
Proof.
  intros H. revert k. induction H; intros [|k] E; cbn in *; try discriminate; [|auto].
  injection E as <-. eauto.
Qed.

Lemma F2_length {A B} (R : A -> B -> Prop) l1 l2 : Forall2 R l1 l2 -> length l1 = length l2.
Proof. induction 1; cbn; auto. Qed.

Lemma get_ok t v p u : val_ok t v -> type_at t p = Some u -> exists x, get v p = Some x /\ val_ok u x.
Proof.
  revert t v. induction p as [|[i|k] p IH]; cbn [type_at get]; intros t v Hv E.
  - injection E as <-. eauto.
  - destruct t as [|n e|]; try discriminate. destruct (_ && _) eqn:Ei; [|discriminate].
    apply andb_prop in Ei as [E1 E2]. apply Z.leb_le in E1. apply Z.ltb_lt in E2.
    destruct (val_ok_coll _ _ _ Hv) as [vs ->]. apply val_ok_arr in Hv as [Hl Hf].
    cbn [part_index]. destruct (nth_error vs (Z.to_nat i)) as [x|] eqn:Ex.
    + apply (IH e); auto. rewrite Forall_forall in Hf. apply Hf. now apply nth_error_In with (Z.to_nat i).
    + apply nth_error_None in Ex. lia.
  - destruct t as [| |fs]; try discriminate. destruct (nth_error fs k) as [f|] eqn:Ek; [|discriminate].
    destruct (val_ok_coll' _ _ Hv) as [vs ->]. apply val_ok_struct in Hv.
    destruct (Forall2_nth _ _ _ k f Hv Ek) as (y & Ey & Hy). cbn [part_index]. rewrite Ey. now apply (IH f).
Qed.

Lemma get_app v p q : get v (p ++ q) = match get v p with Some u => get u q | None => None end.
Proof.
  revert v. induction p as [|x p IH]; cbn [get app]; intros v; [easy|].
  destruct v; [easy|]. destruct (nth_error vs (part_index x)); auto.
Qed.

Lemma list_ext {A} (l1 l2 : list A) : length l1 = length l2 ->
  (forall k x y, nth_error l1 k = Some x -> nth_error l2 k = Some y -> x = y) -> l1 = l2.
Proof.
  revert l2. induction l1 as [|a l1 IH]; intros [|b l2] Hl H; try discriminate; [easy|].
  f_equal; [exact (H O a b eq_refl eq_refl)|]. apply IH; [now injection Hl|].
  intros k. exact (H (S k)).
Qed.

(** Values of a type with the same data are equal. *)
Lemma val_ext t : forall v1 v2, val_ok t v1 -> val_ok t v2 ->
  (forall q s a, type_at t q = Some (SBasic s a) -> get v1 q = get v2 q) -> v1 = v2.
Proof.
  induction t as [s a|n e IH|fs IH] using sty_induction; intros v1 v2 H1 H2 H.
  - specialize (H [] s a eq_refl). cbn in H. now injection H.
  - destruct (val_ok_coll _ _ _ H1) as [vs1 ->]. destruct (val_ok_coll _ _ _ H2) as [vs2 ->].
    apply val_ok_arr in H1 as [L1 F1]. apply val_ok_arr in H2 as [L2 F2]. f_equal.
    apply list_ext; [lia|]. intros k x y Ex Ey. rewrite Forall_forall in F1, F2. apply IH.
    + apply F1. now apply nth_error_In with k.
    + apply F2. now apply nth_error_In with k.
    + intros q s a Eq. assert (Hk : (k < n)%nat) by (rewrite <- L1; apply nth_error_Some; congruence).
      specialize (H (Elt (Z.of_nat k) :: q) s a). cbn [type_at get part_index] in H.
      rewrite Nat2Z.id, Ex, Ey in H. apply H.
      now replace (_ && _) with true by (symmetry; apply andb_true_iff; rewrite Z.leb_le, Z.ltb_lt; lia).
  - destruct (val_ok_coll' _ _ H1) as [vs1 ->]. destruct (val_ok_coll' _ _ H2) as [vs2 ->].
    apply val_ok_struct in H1, H2. f_equal.
    pose proof (F2_length _ _ _ H1) as L1. pose proof (F2_length _ _ _ H2) as L2.
    apply list_ext; [lia|]. intros k x y Ex Ey.
    destruct (nth_error fs k) as [f|] eqn:Ek.
    2: { apply nth_error_None in Ek. assert (k < length vs1)%nat by (apply nth_error_Some; congruence). lia. }
    destruct (Forall2_nth _ _ _ k f H1 Ek) as (x' & Ex' & Hx). destruct (Forall2_nth _ _ _ k f H2 Ek) as (y' & Ey' & Hy).
    assert (x' = x) by congruence. assert (y' = y) by congruence. subst x' y'.
    rewrite Forall_forall in IH. apply (IH f); auto; [now apply nth_error_In with k|].
    intros q s a Eq. specialize (H (Fld k :: q) s a). cbn [type_at get part_index] in H.
    rewrite Ek, Ex, Ey in H. auto.
Qed.

Lemma update_length {A} (l : list A) k x : length (update l k x) = length l.
Proof. revert k. induction l as [|a l IH]; intros [|k]; cbn; auto. Qed.

Lemma update_same {A} (l : list A) k x y : nth_error l k = Some y -> nth_error (update l k x) k = Some x.
Proof. revert k. induction l as [|a l IH]; intros [|k]; cbn; try discriminate; auto. Qed.

Lemma update_other {A} (l : list A) k j x : k <> j -> nth_error (update l k x) j = nth_error l j.
Proof. revert k j. induction l as [|a l IH]; intros [|k] [|j] H; cbn; auto; congruence. Qed.

Lemma update_Forall {A} (P : A -> Prop) l k x : Forall P l -> P x -> Forall P (update l k x).
Proof. intros H Hx. revert k. induction H; intros [|k]; cbn; auto. Qed.

Lemma update_Forall2 {A B} (R : A -> B -> Prop) l1 l2 k a x : Forall2 R l1 l2 -> nth_error l1 k = Some a -> R a x ->
  Forall2 R l1 (update l2 k x).
Proof.
  intros H. revert k. induction H; intros [|k] E Hx; cbn in *; try discriminate; auto.
  injection E as ->. auto.
Qed.

Lemma set_ok t v p u x : val_ok t v -> type_at t p = Some u -> val_ok u x -> val_ok t (set v p x).
Proof.
  revert t v. induction p as [|[i|k] p IH]; cbn [type_at set]; intros t v Hv E Hx.
  - injection E as <-. easy.
  - destruct t as [|n e|]; try discriminate. destruct (_ && _) eqn:Ei; [|discriminate].
    destruct (val_ok_coll _ _ _ Hv) as [vs ->]. destruct (nth_error vs _) as [y|] eqn:Ey; [|easy].
    apply val_ok_arr in Hv as [Hl Hf]. apply val_ok_arr. rewrite update_length. split; [easy|].
    apply update_Forall; auto. apply (IH e); auto. rewrite Forall_forall in Hf. apply Hf.
    now apply nth_error_In in Ey.
  - destruct t as [| |fs]; try discriminate. destruct (nth_error fs k) as [f|] eqn:Ek; [|discriminate].
    destruct (val_ok_coll' _ _ Hv) as [vs ->]. destruct (nth_error vs _) as [y|] eqn:Ey; [|easy].
    apply val_ok_struct in Hv. apply val_ok_struct. cbn [part_index] in *. apply (update_Forall2 _ _ _ _ f); auto.
    apply (IH f); auto. destruct (Forall2_nth _ _ _ k f Hv Ek) as (y' & Ey' & Hy). congruence.
Qed.

Lemma get_set_same t v p u x q : val_ok t v -> type_at t p = Some u -> get (set v p x) (p ++ q) = get x q.
Proof.
  revert t v. induction p as [|y p IH]; cbn [set app]; intros t v Hv E; [easy|].
  destruct (get_ok t v (y :: p) u Hv E) as (z & Ez & _). cbn [get] in Ez |- *. destruct v as [|vs]; [easy|].
  destruct (nth_error vs (part_index y)) as [v'|] eqn:Ev; [|easy]. cbn [get].
  rewrite (update_same _ _ _ _ Ev).
  destruct y as [i|k]; cbn [type_at] in E.
  - destruct t as [|n e|]; try discriminate. destruct (_ && _) eqn:Ei; [|discriminate].
    apply (IH e); auto. apply val_ok_arr in Hv as [_ Hf]. rewrite Forall_forall in Hf.
    apply Hf. now apply nth_error_In in Ev.
  - destruct t as [| |fs]; try discriminate. destruct (nth_error fs k) as [f|] eqn:Ek; [|discriminate].
    apply (IH f); auto. apply val_ok_struct in Hv. destruct (Forall2_nth _ _ _ k f Hv Ek) as (y' & Ey' & Hy).
    cbn [part_index] in Ev. congruence.
Qed.

(** A part of a basic type is within another part or apart from it. *)
Lemma get_set_other t v p u x q s a : val_ok t v -> type_at t p = Some u -> type_at t q = Some (SBasic s a) ->
  (forall r, q <> p ++ r) -> get (set v p x) q = get v q.
Proof.
  revert t v q. induction p as [|y p IH]; intros t v q Hv E Eq Hne.
  - exfalso. now apply (Hne q).
  - destruct q as [|z q].
    { cbn in Eq. injection Eq as ->. destruct y; cbn in E; discriminate. }
    cbn [set]. destruct v as [|vs]; [easy|].
    destruct (nth_error vs (part_index y)) as [v'|] eqn:Ev; [|easy]. cbn [get].
    destruct y as [i|k], z as [j|l]; cbn [type_at] in E, Eq; destruct t as [|n e|fs]; try discriminate.
    + destruct (_ && _) eqn:Ei in E; [|discriminate]. destruct (_ && _) eqn:Ej in Eq; [|discriminate].
      apply andb_prop in Ei as [Ei _], Ej as [Ej _]. apply Z.leb_le in Ei, Ej.
      cbn [part_index]. destruct (Z.eq_dec i j) as [->|Hij].
      * cbn [part_index] in Ev. rewrite (update_same _ _ _ _ Ev), Ev. apply (IH e); auto.
        -- apply val_ok_arr in Hv as [_ Hf]. rewrite Forall_forall in Hf. apply Hf. now apply nth_error_In in Ev.
        -- intros r ->. now apply (Hne r).
      * rewrite update_other by lia. easy.
    + destruct (nth_error fs k) as [f|] eqn:Ek; [|discriminate]. cbn [part_index] in *.
      destruct (Nat.eq_dec k l) as [->|Hkl].
      * rewrite Ek in Eq. rewrite (update_same _ _ _ _ Ev), Ev. apply (IH f); auto.
        -- apply val_ok_struct in Hv. destruct (Forall2_nth _ _ _ l f Hv Ek) as (y' & Ey' & Hy). congruence.
        -- intros r ->. now apply (Hne r).
      * rewrite update_other by lia. easy.
Qed.

(** * Bytes *)

Lemma read_bytes_ext m m' addr n : (forall x, addr <= x < addr + n -> m x = m' x) ->
  read_bytes m addr n = read_bytes m' addr n.
Proof.
  intros H. unfold read_bytes. apply map_ext_in. intros k Hk. apply in_seq in Hk. apply H. lia.
Qed.

Lemma read_bytes_length m addr n : 0 <= n -> Z.of_nat (length (read_bytes m addr n)) = n.
Proof. intros H. unfold read_bytes. rewrite map_length, seq_length. lia. Qed.

Lemma read_bytes_nth m addr n bs : Z.of_nat (length bs) = n ->
  (forall x, addr <= x < addr + n -> m x = nth (Z.to_nat (x - addr)) bs 0) -> read_bytes m addr n = bs.
Proof.
  intros Hl H. apply (nth_ext _ _ 0 0).
  - unfold read_bytes. rewrite map_length, seq_length. lia.
  - unfold read_bytes. rewrite map_length, seq_length. intros k Hk.
    rewrite (nth_indep _ 0 (m (addr + Z.of_nat 0))) by (rewrite map_length, seq_length; easy).
    rewrite (map_nth (fun k => m (addr + Z.of_nat k))). rewrite seq_nth by easy. cbn [Nat.add].
    rewrite H by lia. f_equal. lia.
Qed.

Lemma write_out m addr bs x : x < addr \/ addr + Z.of_nat (length bs) <= x -> write_bytes m addr bs x = m x.
Proof.
  intros H. unfold write_bytes.
  destruct (Z.leb_spec addr x), (Z.ltb_spec x (addr + Z.of_nat (length bs))); cbn; try easy; lia.
Qed.

Lemma write_in m addr bs x : addr <= x < addr + Z.of_nat (length bs) ->
  write_bytes m addr bs x = nth (Z.to_nat (x - addr)) bs 0.
Proof.
  intros H. unfold write_bytes.
  destruct (Z.leb_spec addr x), (Z.ltb_spec x (addr + Z.of_nat (length bs))); cbn; try easy; lia.
Qed.

(** * Parts of SOA data *)

(** The place of the part [q], of size [s], of the data at [addr], slice [off]. *)
Definition leaf_at (w : nat) (t : sty) (addr off : Z) (q : list part) (s : Z) : Z :=
  addr + place (llvm_type w t) q + off * s.

(** The slice pointer is within the address space. *)
Definition lane_ok (w : nat) (t : sty) (addr off : Z) : Prop :=
  0 <= addr /\ addr + sizeof (llvm_type w t) < 2 ^ 64 /\ 0 <= off < Z.of_nat w.

Lemma lane_elt w n e addr off k : type_ok e = true -> lane_ok w (SArr n e) addr off -> (k < n)%nat ->
  wrapu 64 (addr + sizeof (llvm_type w e) * Z.of_nat k) = addr + sizeof (llvm_type w e) * Z.of_nat k /\
  lane_ok w e (addr + sizeof (llvm_type w e) * Z.of_nat k) off.
Proof.
  intros Hok (H1 & H2 & H3) Hk. cbn [llvm_type sizeof] in H2.
  pose proof (sizeof_nonneg _ (llvm_type_ok w e Hok)).
  split; [apply in_space; nia|]. unfold lane_ok. repeat split; try lia; nia.
Qed.

Lemma lane_fld w fs f addr off k : forallb type_ok fs = true -> lane_ok w (SStruct fs) addr off ->
  nth_error fs k = Some f ->
  wrapu 64 (addr + field_off (map (llvm_type w) fs) k) = addr + field_off (map (llvm_type w) fs) k /\
  lane_ok w f (addr + field_off (map (llvm_type w) fs) k) off.
Proof.
  intros Hok (H1 & H2 & H3) Ek. cbn [llvm_type] in H2.
  assert (Em : nth_error (map (llvm_type w) fs) k = Some (llvm_type w f)) by now apply map_nth_error.
  assert (Hm : forallb type_ok (map (llvm_type w) fs) = true) by exact (llvm_type_ok w (SStruct fs) Hok).
  pose proof (field_in_struct _ k _ Hm Em) as B.
  pose proof (sizeof_nonneg _ (llvm_type_ok w f (nth_ok _ _ _ Hok Ek))).
  split; [apply in_space; lia|]. unfold lane_ok. repeat split; lia.
Qed.

Lemma leaf_at_elt w n e addr off k q s :
  leaf_at w (SArr n e) addr off (Elt (Z.of_nat k) :: q) s =
  leaf_at w e (addr + sizeof (llvm_type w e) * Z.of_nat k) off q s.
Proof. unfold leaf_at. cbn [llvm_type place]. lia. Qed.

Lemma leaf_at_fld w fs f addr off k q s : nth_error fs k = Some f ->
  leaf_at w (SStruct fs) addr off (Fld k :: q) s =
  leaf_at w f (addr + field_off (map (llvm_type w) fs) k) off q s.
Proof.
  intros E. unfold leaf_at. cbn [llvm_type place]. rewrite (map_nth_error (llvm_type w) k fs E). lia.
Qed.

Lemma leaf_address_ok w s a addr off : width_ok w -> 0 < s -> lane_ok w (SBasic s a) addr off ->
  apply_slice_offset addr off s = addr + off * s.
Proof.
  intros Hw Hs (H1 & H2 & H3). unfold apply_slice_offset, gep. rewrite (slice_offset w off Hw H3).
  apply in_space. cbn [llvm_type sizeof] in H2.
  assert (off * s <= Z.of_nat w * s) by (apply Z.mul_le_mono_nonneg_r; lia). nia.
Qed.

(** The parts of one slice do not overlap. *)
Lemma leaves_disjoint w t addr off q s a q' s' a' : type_ok t = true -> 0 <= off < Z.of_nat w ->
  type_at t q = Some (SBasic s a) -> type_at t q' = Some (SBasic s' a') -> q <> q' ->
  leaf_at w t addr off q s + s <= leaf_at w t addr off q' s' \/
  leaf_at w t addr off q' s' + s' <= leaf_at w t addr off q s.
Proof.
  intros Hok Ho E E' Hne.
  assert (T : forall q s a, type_at t q = Some (SBasic s a) ->
     type_at (llvm_type w t) (q ++ [Elt off]) = Some (SBasic s a) /\
     place (llvm_type w t) (q ++ [Elt off]) = place (llvm_type w t) q + off * s).
  { clear - Ho. intros q s a E. rewrite type_at_app, (place_app _ _ _ _ (type_at_llvm w t q _ E)).
    rewrite (type_at_llvm w t q _ E). cbn.
    replace (_ && _) with true by (symmetry; apply andb_true_iff; rewrite Z.leb_le, Z.ltb_lt; lia).
    split; [easy|lia]. }
  destruct (T q s a E) as [T1 T2]. destruct (T q' s' a' E') as [T3 T4].
  destruct (places_disjoint (llvm_type w t) _ _ s a s' a' (llvm_type_ok w t Hok) T1 T3) as [D|D].
  - intros X. apply app_inj_tail in X as [X _]. easy.
  - left. unfold leaf_at. lia.
  - right. unfold leaf_at. lia.
Qed.

Lemma basic_size t q s a : type_ok t = true -> type_at t q = Some (SBasic s a) -> 0 < s.
Proof.
  intros Hok E. pose proof (type_at_ok t q _ Hok E) as Ho. cbn [type_ok] in Ho.
  apply andb_prop in Ho as [Ho _]. apply andb_prop in Ho as [_ Ho]. now apply Z.ltb_lt in Ho.
Qed.

(** * Stores *)

Definition lane := (bool * Z * Z * val)%type.

Definition lane_fine (w : nat) (t : sty) (l : lane) : Prop :=
  let '(on, addr, off, v) := l in on = true -> lane_ok w t addr off /\ val_ok t v.

Definition touches (w : nat) (t : sty) (l : lane) (x : Z) : Prop :=
  let '(on, addr, off, _) := l in
  on = true /\ exists q s a, type_at t q = Some (SBasic s a) /\
    leaf_at w t addr off q s <= x < leaf_at w t addr off q s + s.

Definition sub_elt (w : nat) (e : sty) (k : nat) (l : lane) : lane :=
  let '(on, addr, off, v) := l in
  (on, wrapu 64 (addr + sizeof (llvm_type w e) * Z.of_nat k), off, val_nth v k).

Definition sub_fld (w : nat) (fs : list sty) (k : nat) (l : lane) : lane :=
  let '(on, addr, off, v) := l in
  (on, wrapu 64 (addr + field_off (map (llvm_type w) fs) k), off, val_nth v k).

Lemma scatter_arr w m n e lanes :
  scatter_soa w m (SArr n e) lanes =
  fold_left (fun m k => scatter_soa w m e (map (sub_elt w e k) lanes)) (seq 0 n) m.
Proof. reflexivity. Qed.

Lemma scatter_struct w m fs lanes :
  scatter_soa w m (SStruct fs) lanes =
  fold_left (fun m '(k, f) => scatter_soa w m f (map (sub_fld w fs k) lanes)) (combine (seq 0 (length fs)) fs) m.
Proof.
  cbn [scatter_soa].
  change (fun '(on, addr, off, v) => (on, wrapu 64 (addr + field_off (map (llvm_type w) fs) ?k), off, val_nth v ?k))
    with (sub_fld w fs) || idtac.
  generalize O at 1 2. generalize fs at 2 4 5. intros fs'. revert m.
  induction fs' as [|f r IH]; intros m k; [reflexivity|].
  cbn [length seq combine fold_left]. rewrite IH. reflexivity.
Qed.

Lemma combine_seq_nth {A} (l : list A) k x : In (k, x) (combine (seq 0 (length l)) l) -> nth_error l k = Some x.
Proof.
  assert (G : forall (l : list A) b k x, In (k, x) (combine (seq b (length l)) l) ->
                (b <= k)%nat /\ nth_error l (k - b) = Some x).
  { clear. induction l as [|y l IH]; intros b k x H; [easy|]. cbn [length seq combine] in H.
    destruct H as [H|H].
    - injection H as <- <-. rewrite Nat.sub_diag. auto.
    - apply IH in H as [H1 H2]. split; [lia|]. replace (k - b)%nat with (S (k - S b)) by lia. easy. }
  intros H. apply G in H as [_ H]. now rewrite Nat.sub_0_r in H.
Qed.

Lemma combine_seq_split {A} (l : list A) k x : nth_error l k = Some x ->
  exists l1 l2, combine (seq 0 (length l)) l = l1 ++ (k, x) :: l2 /\ forall y, In y l2 -> fst y <> k.
Proof.
  assert (G : forall (l : list A) b k x, nth_error l k = Some x ->
     exists l1 l2, combine (seq b (length l)) l = l1 ++ ((b + k)%nat, x) :: l2 /\ forall y, In y l2 -> fst y <> (b + k)%nat).
  { clear. induction l as [|y l IH]; intros b k x E; [now destruct k|]. destruct k as [|k]; cbn in E.
    - injection E as ->. cbn [length seq combine]. exists [], (combine (seq (S b) (length l)) l).
      rewrite Nat.add_0_r. split; [easy|]. intros [k z] H. apply in_combine_l in H. apply in_seq in H. cbn. lia.
    - destruct (IH (S b) k x E) as (l1 & l2 & E1 & H). exists ((b, y) :: l1), l2. cbn [length seq combine app].
      rewrite E1. replace (b + S k)%nat with (S b + k)%nat by lia. easy. }
  intros E. exact (G l O k x E).
Qed.

Lemma fold_frame {A} (f : memory -> A -> memory) (l : list A) (x : Z) :
  (forall y m, In y l -> f m y x = m x) -> forall m, fold_left f l m x = m x.
Proof.
  induction l as [|y l IH]; intros H m; [easy|]. cbn [fold_left]. rewrite IH.
  - apply H. now left.
  - intros z m' Hz. apply H. now right.
Qed.

Lemma lane_fine_elt w n e k l : type_ok e = true -> (k < n)%nat -> lane_fine w (SArr n e) l ->
  lane_fine w e (sub_elt w e k l).
Proof.
  intros Hok Hk. destruct l as [[[on addr] off] v]. cbn. intros H Hon. destruct (H Hon) as [H1 H2].
  destruct (lane_elt w n e addr off k Hok H1 Hk) as [-> L]. split; [easy|].
  destruct (val_ok_coll _ _ _ H2) as [vs ->]. apply val_ok_arr in H2 as [Hl Hf]. cbn [val_nth].
  rewrite Forall_forall in Hf. apply Hf. apply nth_In. lia.
Qed.

Lemma lane_fine_fld w fs f k l : forallb type_ok fs = true -> nth_error fs k = Some f ->
  lane_fine w (SStruct fs) l -> lane_fine w f (sub_fld w fs k l).
Proof.
  intros Hok Hk. destruct l as [[[on addr] off] v]. cbn. intros H Hon. destruct (H Hon) as [H1 H2].
  destruct (lane_fld w fs f addr off k Hok H1 Hk) as [-> L]. split; [easy|].
  destruct (val_ok_coll' _ _ H2) as [vs ->]. apply val_ok_struct in H2. cbn [val_nth].
  destruct (Forall2_nth _ _ _ k f H2 Hk) as (y & Ey & Hy). now rewrite (nth_error_nth _ _ _ Ey).
Qed.

Lemma touches_elt w n e k l x : type_ok e = true -> (k < n)%nat -> lane_fine w (SArr n e) l ->
  touches w e (sub_elt w e k l) x -> touches w (SArr n e) l x.
Proof.
  intros Hok Hk. destruct l as [[[on addr] off] v]. cbn [lane_fine sub_elt touches].
  intros H (Hon & q & s & a & Eq & Hx).
  destruct (H Hon) as [H1 H2]. destruct (lane_elt w n e addr off k Hok H1 Hk) as [E L]. rewrite E in Hx.
  split; [easy|]. exists (Elt (Z.of_nat k) :: q), s, a. rewrite leaf_at_elt. split; [|easy].
  cbn [type_at]. now replace (_ && _) with true by (symmetry; apply andb_true_iff; rewrite Z.leb_le, Z.ltb_lt; lia).
Qed.

Lemma touches_fld w fs f k l x : forallb type_ok fs = true -> nth_error fs k = Some f ->
  lane_fine w (SStruct fs) l ->
  touches w f (sub_fld w fs k l) x -> touches w (SStruct fs) l x.
Proof.
  intros Hok Hk. destruct l as [[[on addr] off] v]. cbn [lane_fine sub_fld touches].
  intros H (Hon & q & s & a & Eq & Hx).
  destruct (H Hon) as [H1 H2]. destruct (lane_fld w fs f addr off k Hok H1 Hk) as [E L]. rewrite E in Hx.
  split; [easy|]. exists (Fld k :: q), s, a. rewrite (leaf_at_fld w fs f) by easy. split; [|easy].
  cbn [type_at]. now rewrite Hk.
Qed.

(** Bytes that are in no part stored to stay. *)
Lemma scatter_frame w (Hw : width_ok w) t : type_ok t = true -> forall lanes m x,
  Forall (lane_fine w t) lanes -> Forall (fun l => ~ touches w t l x) lanes ->
  scatter_soa w m t lanes x = m x.
Proof.
  induction t as [s a|n e IH|fs IH] using sty_induction; intros Hok lanes m x Hf Ht.
  - cbn [scatter_soa]. unfold scatter_leaf. revert m. induction lanes as [|l lanes IHl]; intros m; [easy|].
    inversion Hf; subst. inversion Ht; subst. cbn [map fold_left]. rewrite IHl by easy.
    destruct l as [[[on addr] off] v]. cbn in *. destruct on; [|easy].
    destruct (H1 eq_refl) as [L V]. destruct (val_ok_basic s a v V) as (bs & -> & Hl).
    pose proof (basic_size (SBasic s a) [] s a Hok eq_refl) as Hs.
    rewrite (leaf_address_ok w s a addr off Hw Hs L). apply write_out. cbn [val_bytes].
    destruct (Z_lt_dec x (addr + off * s)); [now left|]. right.
    destruct (Z_le_dec (addr + off * s + s) x); [lia|]. exfalso. apply H3. split; [easy|].
    exists [], s, a. split; [easy|]. unfold leaf_at. cbn [llvm_type place]. lia.
  - rewrite scatter_arr. apply fold_frame. intros k m' Hk. apply in_seq in Hk.
    cbn [type_ok] in Hok. apply IH; [easy| |].
    + apply Forall_map. eapply Forall_impl; [|exact Hf]. intros l. apply lane_fine_elt; [easy|lia].
    + apply Forall_map. rewrite Forall_forall in *. intros l Hl Hx. apply (Ht l Hl).
      apply (touches_elt w n e k); auto; lia.
  - rewrite scatter_struct. apply fold_frame. intros [k f] m' Hk. apply combine_seq_nth in Hk.
    cbn [type_ok] in Hok. rewrite Forall_forall in IH. apply (IH f).
    + now apply nth_error_In with k.
    + now apply nth_ok with fs k.
    + apply Forall_map. eapply Forall_impl; [|exact Hf]. intros l. now apply lane_fine_fld.
    + apply Forall_map. rewrite Forall_forall in *. intros l Hl Hx. apply (Ht l Hl).
      apply (touches_fld w fs f k); auto.
Qed.

(** Bytes in a part stored to by just one program instance are those stored. *)
Lemma scatter_hit w (Hw : width_ok w) t : type_ok t = true -> forall l1 l2 addr off v m q s a bs x,
  Forall (lane_fine w t) l1 -> Forall (lane_fine w t) l2 -> lane_ok w t addr off -> val_ok t v ->
  Forall (fun l => ~ touches w t l x) l1 -> Forall (fun l => ~ touches w t l x) l2 ->
  type_at t q = Some (SBasic s a) -> get v q = Some (VBytes bs) ->
  leaf_at w t addr off q s <= x < leaf_at w t addr off q s + s ->
  scatter_soa w m t (l1 ++ (true, addr, off, v) :: l2) x = nth (Z.to_nat (x - leaf_at w t addr off q s)) bs 0.
Proof.
  induction t as [s0 a0|n e IH|fs IH] using sty_induction;
    intros Hok l1 l2 addr off v m q s a bs x F1 F2 L V T1 T2 Eq Eg Hx.
  - destruct q as [|[i|k] q]; try discriminate. cbn in Eq, Eg. injection Eq as <- <-. injection Eg as ->.
    cbn [scatter_soa]. unfold scatter_leaf. rewrite map_app, fold_left_app. cbn [map fold_left].
    pose proof (scatter_frame w Hw (SBasic s0 a0) Hok l2) as FR. cbn [scatter_soa] in FR. unfold scatter_leaf in FR.
    rewrite FR by easy.
    pose proof (basic_size (SBasic s0 a0) [] s0 a0 Hok eq_refl) as Hs.
    rewrite (leaf_address_ok w s0 a0 addr off Hw Hs L). unfold leaf_at in *. cbn [llvm_type place] in *.
    cbn [val_bytes]. cbn [val_ok] in V. rewrite write_in by lia. f_equal. lia.
  - destruct q as [|[i|k] q]; cbn in Eq; try discriminate.
    destruct (_ && _) eqn:Ei in Eq; [|discriminate]. apply andb_prop in Ei as [E1 E2].
    apply Z.leb_le in E1. apply Z.ltb_lt in E2. cbn [type_ok] in Hok.
    rewrite <- (Z2Nat.id i E1) in *. set (k := Z.to_nat i) in *. assert (Hk : (k < n)%nat) by lia. clearbody k. clear E1 E2.
    rewrite leaf_at_elt in *.
    rewrite scatter_arr.
    replace (seq 0 n) with (seq 0 k ++ k :: seq (S k) (n - S k)).
    2: { replace n with (k + S (n - S k))%nat at 2 by lia. rewrite seq_app. easy. }
    rewrite fold_left_app. cbn [fold_left]. rewrite fold_frame.
    + rewrite map_app. cbn [map sub_elt].
      destruct (lane_elt w n e addr off k Hok L Hk) as [-> Lk].
      destruct (val_ok_coll _ _ _ V) as [vs ->]. cbn [get part_index] in Eg. rewrite Nat2Z.id in Eg.
      destruct (nth_error vs k) as [u|] eqn:Eu; [|discriminate].
      cbn [val_nth]. rewrite (nth_error_nth _ _ _ Eu).
      apply val_ok_arr in V as [Hl Hf].
      apply (IH Hok) with a; auto.
      * apply Forall_map. eapply Forall_impl; [|exact F1]. intros l. now apply lane_fine_elt.
      * apply Forall_map. eapply Forall_impl; [|exact F2]. intros l. now apply lane_fine_elt.
      * rewrite Forall_forall in Hf. apply Hf. now apply nth_error_In with k.
      * apply Forall_map. rewrite Forall_forall in *. intros l Hl' Hx'. apply (T1 l Hl').
        apply (touches_elt w n e k); auto.
      * apply Forall_map. rewrite Forall_forall in *. intros l Hl' Hx'. apply (T2 l Hl').
        apply (touches_elt w n e k); auto.
    + intros j m' Hj. apply in_seq in Hj. assert (Hjn : (j < n)%nat) by lia.
      assert (FF : Forall (lane_fine w (SArr n e)) (l1 ++ (true, addr, off, v) :: l2)).
      { apply Forall_app. split; [easy|]. constructor; [|easy]. cbn. easy. }
      apply scatter_frame; [easy|easy| |].
      * apply Forall_map. eapply Forall_impl; [|exact FF]. intros l. now apply lane_fine_elt.
      * apply Forall_map. rewrite Forall_forall in *. intros l Hl Hx'.
        pose proof (FF l Hl) as Hfl. apply in_app_iff in Hl as [Hl|[<-|Hl]].
        -- apply (T1 l Hl). apply (touches_elt w n e j); auto.
        -- cbn [sub_elt touches] in Hx'. destruct Hx' as (_ & q' & s' & a' & Eq' & Hx').
           destruct (lane_elt w n e addr off j Hok L Hjn) as [E _]. rewrite E in Hx'. clear E.
           rewrite <- (leaf_at_elt w n e) in Hx, Hx'.
           assert (TT : forall j q s a, (j < n)%nat -> type_at e q = Some (SBasic s a) ->
              type_at (SArr n e) (Elt (Z.of_nat j) :: q) = Some (SBasic s a)).
           { clear. intros j q s a Hj E. cbn [type_at].
             now replace (_ && _) with true by (symmetry; apply andb_true_iff; rewrite Z.leb_le, Z.ltb_lt; lia). }
           destruct (leaves_disjoint w (SArr n e) addr off _ s a _ s' a' Hok (proj2 (proj2 L))
                       (TT k q s a Hk Eq) (TT j q' s' a' Hjn Eq')) as [D|D]; [|lia|lia].
           intros X. injection X as X _. lia.
        -- apply (T2 l Hl). apply (touches_elt w n e j); auto.
  - destruct q as [|[i|k] q]; cbn in Eq; try discriminate.
    destruct (nth_error fs k) as [f|] eqn:Ek; [|discriminate]. cbn [type_ok] in Hok.
    rewrite (leaf_at_fld w fs f) in * by easy.
    rewrite scatter_struct.
    destruct (combine_seq_split fs k f Ek) as (c1 & c2 & Ec & Hc).
    assert (In2 : forall y, In y c2 -> In y (combine (seq 0 (length fs)) fs)).
    { intros y Hy. rewrite Ec. apply in_app_iff. right. now right. }
    rewrite Ec, fold_left_app. cbn [fold_left]. rewrite fold_frame.
    + rewrite map_app. cbn [map sub_fld].
      destruct (lane_fld w fs f addr off k Hok L Ek) as [-> Lk].
      destruct (val_ok_coll' _ _ V) as [vs ->]. cbn [get part_index] in Eg.
      apply val_ok_struct in V. destruct (Forall2_nth _ _ _ k f V Ek) as (u & Eu & Hu). rewrite Eu in Eg.
      cbn [val_nth]. rewrite (nth_error_nth _ _ _ Eu).
      rewrite Forall_forall in IH. apply (IH f) with a; auto.
      * now apply nth_error_In with k.
      * now apply nth_ok with fs k.
      * apply Forall_map. eapply Forall_impl; [|exact F1]. intros l. now apply lane_fine_fld.
      * apply Forall_map. eapply Forall_impl; [|exact F2]. intros l. now apply lane_fine_fld.
      * apply Forall_map. rewrite Forall_forall in *. intros l Hl' Hx'. apply (T1 l Hl').
        apply (touches_fld w fs f k); auto.
      * apply Forall_map. rewrite Forall_forall in *. intros l Hl' Hx'. apply (T2 l Hl').
        apply (touches_fld w fs f k); auto.
    + intros [j g] m' Hj. pose proof (Hc _ Hj) as Hjk. cbn in Hjk. apply In2, combine_seq_nth in Hj.
      assert (FF : Forall (lane_fine w (SStruct fs)) (l1 ++ (true, addr, off, v) :: l2)).
      { apply Forall_app. split; [easy|]. constructor; [|easy]. cbn. easy. }
      apply scatter_frame; [easy|now apply nth_ok with fs j| |].
      * apply Forall_map. eapply Forall_impl; [|exact FF]. intros l. now apply lane_fine_fld.
      * apply Forall_map. rewrite Forall_forall in *. intros l Hl Hx'.
        pose proof (FF l Hl) as Hfl. apply in_app_iff in Hl as [Hl|[<-|Hl]].
        -- apply (T1 l Hl). apply (touches_fld w fs g j); auto.
        -- cbn [sub_fld touches] in Hx'. destruct Hx' as (_ & q' & s' & a' & Eq' & Hx').
           destruct (lane_fld w fs g addr off j Hok L Hj) as [E _]. rewrite E in Hx'. clear E.
           rewrite <- (leaf_at_fld w fs f) in Hx by easy. rewrite <- (leaf_at_fld w fs g) in Hx' by easy.
           assert (TT : forall j g q s a, nth_error fs j = Some g -> type_at g q = Some (SBasic s a) ->
              type_at (SStruct fs) (Fld j :: q) = Some (SBasic s a)).
           { clear. intros j g q s a Hj E. cbn [type_at]. now rewrite Hj. }
           destruct (leaves_disjoint w (SStruct fs) addr off _ s a _ s' a' Hok (proj2 (proj2 L))
                       (TT k f q s a Ek Eq) (TT j g q' s' a' Hj Eq')) as [D|D]; [|lia|lia].
           intros X. injection X as X _. lia.
        -- apply (T2 l Hl). apply (touches_fld w fs g j); auto.
Qed.
