(** Proofs about arrays of SOA structures: programs. *)
From Coq Require Import ZArith List Bool Lia.
From Verif Require Import Bits SoaModel SoaSpec SoaProofs SoaProofs2 SoaProofs3.
Import ListNotations.
Open Scope Z_scope.

Lemma fold_left_ext_in {A B} (f g : A -> B -> A) l : (forall m y, In y l -> f m y = g m y) ->
  forall m, fold_left f l m = fold_left g l m.
Proof.
  induction l as [|y l IH]; intros H m; [easy|]. cbn [fold_left]. rewrite (H m y) by now left.
  apply IH. intros m' z Hz. apply H. now right.
Qed.

(** A store through one pointer is a scatter of one program instance. *)
Lemma store_scatter w t : type_ok t = true -> forall m addr off v, val_ok t v ->
  store_soa w m addr off t v = scatter_soa w m t [(true, addr, off, v)].
Proof.
  induction t as [s a|n e IH|fs IH] using sty_induction; intros Hok m addr off v V.
  - destruct (val_ok_basic _ _ _ V) as (bs & -> & _). reflexivity.
  - destruct (val_ok_coll _ _ _ V) as [vs ->]. rewrite scatter_arr. cbn [store_soa].
    apply fold_left_ext_in. intros m' k Hk. apply in_seq in Hk. cbn [map sub_elt val_nth]. apply IH; [easy|].
    apply val_ok_arr in V as [Hl Hf]. rewrite Forall_forall in Hf. apply Hf, nth_In. lia.
  - destruct (val_ok_coll' _ _ V) as [vs ->]. rewrite scatter_struct. cbn [store_soa].
    assert (G : forall fs' k m, (forall j f, nth_error fs' j = Some f -> nth_error fs (k + j) = Some f) ->
      (fix go (fs' : list sty) (k : nat) (m : memory) {struct fs'} : memory :=
         match fs' with
         | [] => m
         | f :: r => go r (S k)
                       (store_soa w m (wrapu 64 (addr + field_off (map (llvm_type w) fs) k)) off f
                          (nth k vs (VBytes [])))
         end) fs' k m =
      fold_left (fun m '(k, f) => scatter_soa w m f (map (sub_fld w fs k) [(true, addr, off, VColl vs)]))
        (combine (seq k (length fs')) fs') m).
    { induction fs' as [|f r IHr]; intros k m' H; [reflexivity|].
      cbn [length seq combine fold_left]. rewrite IHr.
      - f_equal. cbn [map sub_fld val_nth].
        assert (Ek : nth_error fs k = Some f) by (rewrite <- (Nat.add_0_r k); now apply H).
        rewrite Forall_forall in IH. apply (IH f).
        + now apply nth_error_In with k.
        + now apply nth_ok with fs k.
        + apply val_ok_struct in V. destruct (Forall2_nth _ _ _ k f V Ek) as (y & Ey & Hy).
          now rewrite (nth_error_nth _ _ _ Ey).
      - intros j g E. replace (S k + j)%nat with (k + S j)%nat by lia. now apply H. }
    apply G. intros j f E. exact E.
Qed.

(** * Loads *)

Lemma nth_map_seq {A} (f : nat -> A) n k : (k < n)%nat -> nth_error (map f (seq 0 n)) k = Some (f k).
Proof.
  intros H. rewrite (map_nth_error f k (seq 0 n) (d := k)); [easy|].
  rewrite (nth_error_nth' (seq 0 n) O) by now rewrite seq_length. now rewrite seq_nth.
Qed.

Lemma load_struct w m addr off fs :
  load_soa w m addr off (SStruct fs) =
  VColl (map (fun '(k, f) => load_soa w m (wrapu 64 (addr + field_off (map (llvm_type w) fs) k)) off f)
           (combine (seq 0 (length fs)) fs)).
Proof.
  cbn [load_soa]. f_equal. generalize O at 1 2. generalize fs at 2 4 5. intros fs'.
  induction fs' as [|f r IH]; intros k; [reflexivity|]. cbn [length seq combine map]. now rewrite IH.
Qed.

Lemma combine_seq_at {A} (l : list A) k x : nth_error l k = Some x ->
  nth_error (combine (seq 0 (length l)) l) k = Some (k, x).
Proof.
  assert (G : forall (l : list A) b k x, nth_error l k = Some x ->
            nth_error (combine (seq b (length l)) l) k = Some ((b + k)%nat, x)).
  { clear. induction l as [|y l IH]; intros b [|k] x E; try discriminate; cbn in *.
    - injection E as ->. now rewrite Nat.add_0_r.
    - rewrite (IH (S b) k x E). f_equal. f_equal. lia. }
  exact (G l O k x).
Qed.

Lemma load_ok w t : type_ok t = true -> forall m addr off, lane_ok w t addr off -> val_ok t (load_soa w m addr off t).
Proof.
  induction t as [s a|n e IH|fs IH] using sty_induction; intros Hok m addr off L.
  - cbn. apply read_bytes_length. pose proof (sizeof_nonneg _ Hok). easy.
  - cbn [load_soa]. apply val_ok_arr. rewrite map_length, seq_length. split; [easy|].
    apply Forall_map, Forall_forall. intros k Hk. apply in_seq in Hk. cbn [type_ok] in Hok.
    destruct (lane_elt w n e addr off k Hok L ltac:(lia)) as [-> L']. now apply IH.
  - rewrite load_struct. apply val_ok_struct. cbn [type_ok] in Hok.
    assert (G : forall l, (forall k f, In (k, f) l -> nth_error fs k = Some f) ->
      Forall2 val_ok (map snd l)
       (map (fun '(k, f) => load_soa w m (wrapu 64 (addr + field_off (map (llvm_type w) fs) k)) off f) l)).
    { induction l as [|[k f] l IHl]; intros H; cbn [map]; constructor.
      - assert (Ek : nth_error fs k = Some f) by (apply H; now left).
        destruct (lane_fld w fs f addr off k Hok L Ek) as [-> L'].
        rewrite Forall_forall in IH. apply IH; auto; [now apply nth_error_In with k|now apply nth_ok with fs k].
      - apply IHl. intros k' f' H'. apply H. now right. }
    specialize (G (combine (seq 0 (length fs)) fs) (combine_seq_nth fs)).
    replace (map snd (combine (seq 0 (length fs)) fs)) with fs in G; [exact G|].
    clear. generalize O. induction fs as [|f r IH]; intros k; [easy|]. cbn. now rewrite <- IH.
Qed.

Lemma load_leaf w (Hw : width_ok w) t : type_ok t = true -> forall m addr off q s a, lane_ok w t addr off ->
  type_at t q = Some (SBasic s a) ->
  get (load_soa w m addr off t) q = Some (VBytes (read_bytes m (leaf_at w t addr off q s) s)).
Proof.
  induction t as [s0 a0|n e IH|fs IH] using sty_induction; intros Hok m addr off q s a L Eq.
  - destruct q as [|[]]; try discriminate. injection Eq as <- <-. cbn [get load_soa].
    pose proof (basic_size (SBasic s0 a0) [] s0 a0 Hok eq_refl) as Hs.
    rewrite (leaf_address_ok w s0 a0 addr off Hw Hs L). unfold leaf_at. cbn [llvm_type place].
    do 3 f_equal. lia.
  - destruct q as [|[i|k] q]; cbn in Eq; try discriminate.
    destruct (_ && _) eqn:Ei in Eq; [|discriminate]. apply andb_prop in Ei as [E1 E2].
    apply Z.leb_le in E1. apply Z.ltb_lt in E2. cbn [type_ok] in Hok.
    rewrite <- (Z2Nat.id i E1) in *. set (k := Z.to_nat i) in *. assert (Hk : (k < n)%nat) by lia.
    rewrite leaf_at_elt. cbn [load_soa get part_index]. rewrite Nat2Z.id.
    rewrite nth_map_seq by easy. destruct (lane_elt w n e addr off k Hok L Hk) as [-> L'].
    now apply IH with a.
  - destruct q as [|[i|k] q]; cbn in Eq; try discriminate.
    destruct (nth_error fs k) as [f|] eqn:Ek; [|discriminate]. cbn [type_ok] in Hok.
    rewrite (leaf_at_fld w fs f) by easy. rewrite load_struct. cbn [get part_index].
    rewrite (map_nth_error _ k _ (combine_seq_at fs k f Ek)).
    destruct (lane_fld w fs f addr off k Hok L Ek) as [-> L'].
    rewrite Forall_forall in IH. apply (IH f) with a; auto; [now apply nth_error_In with k|now apply nth_ok with fs k].
Qed.

(** * The array *)

Lemma lane_elem w n t base i : array_ok w n t base -> 0 <= i < Z.of_nat n * Z.of_nat w ->
  lane_ok w t (elem_addr w t base i) (i mod Z.of_nat w).
Proof.
  intros Ha Hi. destruct (elem_bounds w n t base i Ha Hi) as (B1 & B2 & B3 & B4).
  destruct Ha as (Hw & Hok & _ & Hb & _). unfold lane_ok. lia.
Qed.

Lemma lane_part w t p u addr off : type_ok t = true -> type_at t p = Some u -> lane_ok w t addr off ->
  lane_ok w u (addr + place (llvm_type w t) p) off.
Proof.
  intros Hok E (H1 & H2 & H3). pose proof (place_bounds _ p _ (llvm_type_ok w t Hok) (type_at_llvm w t p _ E)).
  unfold lane_ok. lia.
Qed.

Lemma leaf_at_part w t p u addr off q s : type_at t p = Some u ->
  leaf_at w u (addr + place (llvm_type w t) p) off q s = leaf_at w t addr off (p ++ q) s.
Proof.
  intros E. unfold leaf_at. rewrite (place_app _ _ _ _ (type_at_llvm w t p _ E)). lia.
Qed.

Lemma soa_place_leaf w t base i p s a : type_at t p = Some (SBasic s a) ->
  soa_place w t base i p = leaf_at w t (elem_addr w t base i) (i mod Z.of_nat w) p s.
Proof. intros E. now rewrite (soa_place_eq w t base i p s a E). Qed.

(** Every memory holds an array. *)
Theorem holds_some w n t base m : array_ok w n t base ->
  holds w n t base m (fun i => load_soa w m (elem_addr w t base i) (i mod Z.of_nat w) t).
Proof.
  intros Ha i Hi. pose proof (lane_elem w n t base i Ha Hi) as L. destruct Ha as (Hw & Hok & _).
  split; [now apply load_ok|]. intros p s a E. rewrite (soa_place_leaf w t base i p s a E).
  now apply load_leaf with a.
Qed.

(** Loads. *)
Lemma load_part w n t base m arr i p u pr : array_ok w n t base -> holds w n t base m arr ->
  0 <= i < Z.of_nat n * Z.of_nat w -> type_at t p = Some u ->
  Some (load w m (LVal (elem_addr w t base i + place (llvm_type w t) p) (i mod Z.of_nat w) pr u)) = get (arr i) p.
Proof.
  intros Ha Hh Hi E. pose proof (lane_elem w n t base i Ha Hi) as L. destruct Ha as (Hw & Hok & _).
  destruct (Hh i Hi) as [V G]. destruct (get_ok t (arr i) p u V E) as (x & Ex & Vx). rewrite Ex. f_equal.
  unfold load. cbn [la loff lty].
  pose proof (lane_part w t p u _ _ Hok E L) as L'. pose proof (type_at_ok t p u Hok E) as Hu.
  apply (val_ext u); [now apply load_ok|easy|]. intros q s a Eq.
  rewrite (load_leaf w Hw u Hu m _ _ q s a L' Eq).
  assert (Epq : type_at t (p ++ q) = Some (SBasic s a)) by now rewrite type_at_app, E.
  specialize (G (p ++ q) s a Epq). rewrite get_app, Ex in G. rewrite G.
  rewrite (soa_place_leaf w t base i _ s a Epq). now rewrite (leaf_at_part w t p u _ _ q s E).
Qed.

(** Stores. *)
Lemma store_at w n t base m arr i p u pr v : array_ok w n t base -> holds w n t base m arr ->
  0 <= i < Z.of_nat n * Z.of_nat w -> type_at t p = Some u -> val_ok u v ->
  let m' := store w m (LVal (elem_addr w t base i + place (llvm_type w t) p) (i mod Z.of_nat w) pr u) v in
  holds w n t base m' (fun j => if j =? i then set (arr i) p v else arr j) /\
  (forall x, x < base \/ base + Z.of_nat n * sizeof (llvm_type w t) <= x -> m' x = m x).
Proof.
  intros Ha Hh Hi E V m'. pose proof (lane_elem w n t base i Ha Hi) as L. pose proof Ha as (Hw & Hok & _).
  pose proof (lane_part w t p u _ _ Hok E L) as L'. pose proof (type_at_ok t p u Hok E) as Hu.
  unfold m', store. cbn [la loff lty]. rewrite (store_scatter w u Hu _ _ _ v V).
  assert (FR : forall x, (forall q s a, type_at t (p ++ q) = Some (SBasic s a) ->
      ~ (soa_place w t base i (p ++ q) <= x < soa_place w t base i (p ++ q) + s)) ->
      scatter_soa w m u [(true, elem_addr w t base i + place (llvm_type w t) p, i mod Z.of_nat w, v)] x = m x).
  { intros x Hx. apply scatter_frame; [easy|easy|constructor; [easy|constructor]|constructor; [|constructor]].
    intros (_ & q & s & a & Eq & Hr).
    assert (Epq : type_at t (p ++ q) = Some (SBasic s a)) by now rewrite type_at_app, E.
    apply (Hx q s a Epq). rewrite (soa_place_leaf w t base i _ s a Epq).
    now rewrite (leaf_at_part w t p u _ _ q s E) in Hr. }
  split.
  - intros j Hj. destruct (Hh j Hj) as [Vj Gj]. destruct (Hh i Hi) as [Vi Gi].
    split. { destruct (Z.eqb_spec j i) as [->|Hne]; [|easy]. now apply set_ok with u. }
    intros q s a Eq.
    assert (OUT : (forall r, (j, q) <> (i, p ++ r)) ->
       read_bytes (scatter_soa w m u [(true, elem_addr w t base i + place (llvm_type w t) p, i mod Z.of_nat w, v)])
         (soa_place w t base j q) s = read_bytes m (soa_place w t base j q) s).
    { intros Hr. apply read_bytes_ext. intros x Hx. apply FR. intros r s' a' Er Hx'.
      destruct (parts_disjoint w n t base j q s a i (p ++ r) s' a' Ha Hj Hi Eq Er (Hr r)); lia. }
    destruct (Z.eqb_spec j i) as [->|Hne].
    + assert (D : {r | q = p ++ r} + {forall r, q <> p ++ r}).
      { clear. revert q. induction p as [|x p IH]; intros q; [left; now exists q|].
        destruct q as [|y q]; [right; easy|].
        assert (DP : {x = y} + {x <> y}) by (decide equality; [apply Z.eq_dec|apply Nat.eq_dec]).
        destruct DP as [<-|N]; [|right; intros r X; injection X as X _; congruence].
        destruct (IH q) as [[r ->]|N]; [left; now exists r|right; intros r X; injection X; apply N]. }
      destruct D as [[r ->]|N].
      * rewrite (get_set_same t (arr i) p u v r Vi E).
        rewrite type_at_app, E in Eq. destruct (get_ok u v r _ V Eq) as (b & Eb & Vb).
        destruct (val_ok_basic s a b Vb) as (bs & -> & Hl). rewrite Eb. do 2 f_equal. symmetry.
        apply read_bytes_nth; [easy|].
        assert (Epq : type_at t (p ++ r) = Some (SBasic s a)) by now rewrite type_at_app, E.
        rewrite (soa_place_leaf w t base i _ s a Epq), <- (leaf_at_part w t p u _ _ r s E).
        intros x Hx. apply (scatter_hit w Hw u Hu [] [] _ _ v m r s a bs x); auto.
      * rewrite (get_set_other t (arr i) p u v q s a Vi E Eq N). rewrite OUT; [now apply Gi with a|].
        intros r X. injection X as X. now apply (N r).
    + rewrite OUT; [now apply Gj with a|]. intros r X. injection X as X _. easy.
  - intros x Hx. apply FR. intros q s a Eq Hr.
    pose proof (leaf_in_array w n t base i _ s a Ha Hi Eq). lia.
Qed.

Theorem run_ok w n t base : array_ok w n t base -> forall p m arr m' arr' os os',
  Forall (stmt_ok w n t) p -> holds w n t base m arr ->
  run w (lvar base (SArr n t)) m p = (m', os) -> aos_run arr p = (arr', os') ->
  os = os' /\ holds w n t base m' arr' /\
  (forall x, x < base \/ base + Z.of_nat n * sizeof (llvm_type w t) <= x -> m' x = m x).
Proof.
  intros Ha. induction p as [|s p IH]; intros m arr m' arr' os os' Hp Hh E E'.
  - cbn in E, E'. injection E as <- <-. injection E' as <- <-. auto.
  - inversion Hp as [|? ? Hs Hr]; subst. cbn [run aos_run] in E, E'.
    destruct (exec w (lvar base (SArr n t)) m s) as [m1 o] eqn:Ex.
    destruct (aos_exec arr s) as [a1 o'] eqn:Ex'.
    destruct (run w (lvar base (SArr n t)) m1 p) as [m2 os1] eqn:Er.
    destruct (aos_run a1 p) as [a2 os1'] eqn:Er'.
    injection E as <- <-. injection E' as <- <-.
    assert (ST : o = o' /\ holds w n t base m1 a1 /\
      (forall x, x < base \/ base + Z.of_nat n * sizeof (llvm_type w t) <= x -> m1 x = m x)).
    { destruct s as [as_|as_ v]; cbn [stmt_ok] in Hs.
      - destruct Hs as (u & k & i & r & -> & Hi & Et & Hf & Hsi). cbn [exec aos_exec] in Ex, Ex'.
        destruct (eval_access w n t base k i r u Ha Hi Et Hf Hsi) as (pr & _ & Ee). rewrite Ee in Ex.
        injection Ex as <- <-. injection Ex' as <- <-. split; [|auto].
        exact (load_part w n t base m arr i (parts_of r) u pr Ha Hh Hi Et).
      - destruct Hs as (u & (k & i & r & -> & Hi & Et & Hf & Hsi) & V). cbn [exec aos_exec] in Ex, Ex'.
        destruct (eval_access w n t base k i r u Ha Hi Et Hf Hsi) as (pr & _ & Ee). rewrite Ee in Ex.
        injection Ex as <- <-. injection Ex' as <- <-. split; [easy|].
        exact (store_at w n t base m arr i (parts_of r) u pr v Ha Hh Hi Et V). }
    destruct ST as (-> & H1 & F1).
    destruct (IH m1 a1 m2 a2 os1 os1' Hr H1 Er Er') as (-> & H2 & F2).
    split; [easy|]. split; [easy|]. intros x Hx. rewrite F2, F1; easy.
Qed.

(** * Pointers to elements *)

Lemma points_elem w n t base l i : array_ok w n t base -> points_to w n t base l i ->
  0 <= i < Z.of_nat n * Z.of_nat w /\ l = elem_ptr w t base i /\
  l = LVal (elem_addr w t base i) (i mod Z.of_nat w) PSlice t.
Proof.
  intros Ha (Hi & k & Hk & E). rewrite (elem_index_ptr w n t base k i Ha Hi Hk) in E. injection E as <-.
  split; [easy|]. split; [easy|]. unfold elem_ptr.
  destruct (elem_bounds w n t base i Ha Hi) as (B1 & B2 & B3 & B4). destruct Ha as (Hw & Hok & _ & Hb & _).
  pose proof (sizeof_nonneg _ (llvm_type_ok w t Hok)). now rewrite in_space by lia.
Qed.

Theorem points_add w n t base k p q i d : array_ok w n t base -> ibits k = 64 -> Z.of_nat n * Z.of_nat w <= 2 ^ 62 ->
  points_to w n t base p i -> points_to w n t base q (i + d) -> pointer_add k w p d = q.
Proof.
  intros Ha Hk Hn Hp Hq. destruct (points_elem _ _ _ _ _ _ Ha Hp) as (Hi & -> & _).
  destruct (points_elem _ _ _ _ _ _ Ha Hq) as (Hj & -> & _). apply pointer_add_ok; [apply Ha|easy|lia].
Qed.

Theorem points_sub w n t base k p q i d : array_ok w n t base -> ibits k = 64 -> Z.of_nat n * Z.of_nat w <= 2 ^ 62 ->
  points_to w n t base p i -> points_to w n t base q (i - d) -> pointer_sub k w p d = q.
Proof.
  intros Ha Hk Hn Hp Hq. destruct (points_elem _ _ _ _ _ _ Ha Hp) as (Hi & -> & _).
  destruct (points_elem _ _ _ _ _ _ Ha Hq) as (Hj & -> & _). apply pointer_sub_ok; [apply Ha|easy|lia].
Qed.

(** Walking through other places, even outside the array. *)
Theorem points_walk w n t base k : array_ok w n t base -> ibits k = 64 ->
  forall ds p q i, Forall (fun d => - 2 ^ 62 <= d < 2 ^ 62) ds ->
  points_to w n t base p i -> points_to w n t base q (i + fold_right Z.add 0 ds) ->
  fold_left (fun p d => pointer_add k w p d) ds p = q.
Proof.
  intros Ha Hk ds p q i Hd Hp Hq. destruct (points_elem _ _ _ _ _ _ Ha Hp) as (Hi & -> & _).
  destruct (points_elem _ _ _ _ _ _ Ha Hq) as (Hj & -> & _). clear Hp Hq Hi Hj. revert i.
  induction Hd as [|d ds Hd1 Hds IH]; intros i; cbn [fold_left fold_right].
  - now rewrite Z.add_0_r.
  - rewrite pointer_add_ok by (try easy; apply Ha). rewrite IH. f_equal. lia.
Qed.

Theorem points_diff w n t base p q i j : array_ok w n t base -> 0 < sizeof (declared w t) ->
  Z.of_nat n * sizeof (declared w t) < 2 ^ 63 -> Z.of_nat n * Z.of_nat w < 2 ^ 63 ->
  points_to w n t base p i -> points_to w n t base q j -> pointer_diff w p q = i - j.
Proof.
  intros Ha Hs Hn Hw Hp Hq. destruct (points_elem _ _ _ _ _ _ Ha Hp) as (Hi & -> & _).
  destruct (points_elem _ _ _ _ _ _ Ha Hq) as (Hj & -> & _). now apply pointer_diff_ok with n.
Qed.

(** Gathers. *)
Theorem gather_ok w n t base m arr lanes : array_ok w n t base -> holds w n t base m arr ->
  Forall (fun '(on, l, i) => on = true -> points_to w n t base l i) lanes ->
  gather w m (map fst lanes) = map (fun '(on, _, i) => if on : bool then Some (arr i) else None) lanes.
Proof.
  intros Ha Hh Hl. unfold gather. rewrite map_map. apply map_ext_in. intros [[on l] i] Hin. cbn [fst].
  rewrite Forall_forall in Hl. specialize (Hl _ Hin). cbn in Hl. destruct on; [|easy].
  destruct (points_elem _ _ _ _ _ _ Ha (Hl eq_refl)) as (Hi & _ & ->).
  pose proof (load_part w n t base m arr i [] t PSlice Ha Hh Hi eq_refl) as E. cbn [place get] in E.
  now rewrite Z.add_0_r in E.
Qed.

(** Scatters. *)
Theorem scatter_ok w n t base m arr arr' lanes : array_ok w n t base -> holds w n t base m arr ->
  Forall (fun '(on, l, i, v) => on = true -> points_to w n t base l i /\ val_ok t v) lanes ->
  NoDup (map (fun '(on, l, i, v) => i) (filter (fun '(on, l, i, v) => on) lanes)) ->
  assigned (map (fun '(on, l, i, v) => (on, i, v)) lanes) arr arr' ->
  holds w n t base (scatter w m t (map (fun '(on, l, i, v) => (on, l, v)) lanes)) arr' /\
  (forall x, x < base \/ base + Z.of_nat n * sizeof (llvm_type w t) <= x ->
     scatter w m t (map (fun '(on, l, i, v) => (on, l, v)) lanes) x = m x).
Proof.
  intros Ha Hh Hl Hd [A1 A2]. pose proof Ha as (Hw & Hok & _).
  assert (E : exists ls, scatter w m t (map (fun '(on, l, i, v) => (on, l, v)) lanes) = scatter_soa w m t ls /\
     ls = map (fun '(on, l, i, v) => (on, la l, loff l, v)) lanes).
  { eexists. split; [|reflexivity]. unfold scatter. rewrite map_map. f_equal. apply map_ext.
    intros [[[on l] i] v]. reflexivity. }
  destruct E as (ls & -> & Els).
  assert (FF : Forall (lane_fine w t) ls).
  { subst ls. apply Forall_map. eapply Forall_impl; [|exact Hl]. intros [[[on l] i] v] H Hon.
    destruct (H Hon) as [P V]. destruct (points_elem _ _ _ _ _ _ Ha P) as (Hi & _ & ->). cbn.
    split; [now apply lane_elem with n|easy]. }
  assert (FR : forall x ls', incl ls' lanes ->
      (forall i v l q s a, In (true, l, i, v) ls' -> type_at t q = Some (SBasic s a) ->
        ~ (soa_place w t base i q <= x < soa_place w t base i q + s)) ->
      Forall (fun l => ~ touches w t l x) (map (fun '(on, l, i, v) => (on, la l, loff l, v)) ls')).
  { intros x ls' Hin Hx. apply Forall_map, Forall_forall. intros [[[on l] i] v] Hl'. cbn [touches].
    intros (-> & q & s & a & Eq & Hr). apply (Hx i v l q s a Hl' Eq).
    rewrite Forall_forall in Hl. destruct (Hl _ (Hin _ Hl') eq_refl) as [P V].
    destruct (points_elem _ _ _ _ _ _ Ha P) as (Hi & _ & ->). cbn [la loff] in Hr.
    now rewrite (soa_place_leaf w t base i q s a Eq). }
  split.
  - intros j Hj. destruct (Hh j Hj) as [Vj Gj].
    assert (D : (exists l v, In (true, l, j, v) lanes) \/ (forall l v, ~ In (true, l, j, v) lanes)).
    { clear. induction lanes as [|[[[on l] i] v] lanes [(l' & v' & H)|H]].
      - right. now intros.
      - left. exists l', v'. now right.
      - destruct on; [destruct (Z.eq_dec i j) as [->|N]|].
        + left. exists l, v. now left.
        + right. intros l' v' [X|X]; [congruence|now apply H in X].
        + right. intros l' v' [X|X]; [congruence|now apply H in X]. }
    destruct D as [(l & v & Hin)|Hout].
    + assert (Aj : arr' j = v).
      { apply A1. apply in_map_iff. now exists (true, l, j, v). }
      rewrite Aj. rewrite Forall_forall in Hl. destruct (Hl _ Hin eq_refl) as [P V]. split; [easy|].
      intros q s a Eq. destruct (get_ok t v q _ V Eq) as (b & Eb & Vb).
      destruct (val_ok_basic s a b Vb) as (bs & -> & Hlen). rewrite Eb. do 2 f_equal. symmetry.
      apply read_bytes_nth; [easy|]. intros x Hx.
      apply in_split in Hin as (ls1 & ls2 & Esp).
      assert (NX : forall ls', incl ls' (ls1 ++ ls2) ->
        Forall (fun l => ~ touches w t l x) (map (fun '(on, l, i, v) => (on, la l, loff l, v)) ls')).
      { intros ls' Hi'. apply FR.
        - intros y Hy. rewrite Esp. apply Hi' in Hy. apply in_app_iff in Hy as [Hy|Hy]; apply in_app_iff; [now left|right; now right].
        - intros i' v' l' q' s' a' Hin' Eq' Hx'. pose proof (Hi' _ Hin') as Hin2.
          assert (Hin3 : In (true, l', i', v') lanes).
          { rewrite Esp. apply in_app_iff in Hin2 as [Hy|Hy]; apply in_app_iff; [now left|right; now right]. }
          destruct (Hl _ Hin3 eq_refl) as [P' _]. destruct P' as [Hi'' _].
          assert (Hne : i' <> j).
          { intros ->. rewrite Esp, filter_app in Hd. cbn [filter] in Hd. rewrite map_app in Hd. cbn [map] in Hd.
            apply NoDup_remove_2 in Hd. apply Hd. rewrite <- map_app. apply in_map_iff. exists (true, l', j, v').
            split; [easy|]. rewrite <- filter_app. apply filter_In. easy. }
          destruct (parts_disjoint w n t base i' q' s' a' j q s a Ha Hi'' Hj Eq' Eq) as [D|D]; [|lia|lia].
          intros X. injection X as X _. easy. }
      destruct (points_elem _ _ _ _ _ _ Ha P) as (Hi & _ & El).
      assert (SP : ls = map (fun '(on, l, i, v) => (on, la l, loff l, v)) ls1 ++
                        (true, elem_addr w t base j, j mod Z.of_nat w, v) ::
                        map (fun '(on, l, i, v) => (on, la l, loff l, v)) ls2).
      { rewrite Els, Esp, map_app. cbn [map]. rewrite El. reflexivity. }
      rewrite SP in FF |- *. apply Forall_app in FF as [FF1 FF2]. apply Forall_cons_iff in FF2 as [FF3 FF4].
      destruct (FF3 eq_refl) as [L _].
      rewrite (soa_place_leaf w t base j q s a Eq) in Hx |- *.
      apply (scatter_hit w Hw t Hok) with a; auto.
      * apply NX. intros y Hy. apply in_app_iff. now left.
      * apply NX. intros y Hy. apply in_app_iff. now right.
    + rewrite (A2 j).
      2: { intros v X. apply in_map_iff in X as ([[[on l] i] v'] & X & Y). injection X as -> -> ->. now apply Hout in Y. }
      split; [easy|]. intros q s a Eq. rewrite (Gj q s a Eq). do 2 f_equal. apply read_bytes_ext. intros x Hx.
      symmetry. apply scatter_frame; auto. subst ls. apply FR; [apply incl_refl|].
      intros i v l q' s' a' Hin Eq' Hx'. rewrite Forall_forall in Hl.
      destruct (Hl _ Hin eq_refl) as [[Hi _] _].
      destruct (parts_disjoint w n t base i q' s' a' j q s a Ha Hi Hj Eq' Eq) as [D|D]; [|lia|lia].
      intros X. injection X as -> _. now apply Hout in Hin.
  - intros x Hx. apply scatter_frame; auto. subst ls. apply FR; [apply incl_refl|].
    intros i v l q s a Hin Eq Hr. rewrite Forall_forall in Hl. destruct (Hl _ Hin eq_refl) as [[Hi _] _].
    pose proof (leaf_in_array w n t base i q s a Ha Hi Eq). lia.
Qed.
