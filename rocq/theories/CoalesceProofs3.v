(** Proofs for gather coalescing (C35): whole groups. *)

From Coq Require Import ZArith List Bool Lia Sorted.
From Verif Require Import Bits AddrProofs3 AddrProofs6 CoalesceModel CoalesceSpec CoalesceProofs CoalesceProofs2.
Import ListNotations.
Open Scope Z_scope.

Lemma mod_shift x y k : y = x + k * 2 ^ 64 -> x mod 2 ^ 64 = y mod 2 ^ 64.
Proof. intros ->. symmetry. apply Z_mod_plus_full. Qed.

(** ** Addresses *)

Lemma plain_range g c : plain g -> In c (consts g) -> 0 <= c < 2 ^ 64 /\ (4 | c).
Proof.
  intros P I. destruct (P c I) as [R D]. split; [|exact D]. unfold width in R.
  destruct (is64 g); cbn in R; lia.
Qed.

Lemma wraps64_four c : (4 | c) -> 4 * Z.quot (extract_int c) 4 = wraps 64 c.
Proof.
  intros [k ->]. unfold extract_int. destruct (wraps_ex 64 (k * 4) ltac:(lia)) as [j ->].
  replace (k * 4 + j * 2 ^ 64) with ((k + j * 2 ^ 62) * 4) by lia. rewrite Z.quot_mul by lia. lia.
Qed.

Lemma same_call_eq a b : same_call a b = true ->
  func a = func b /\ base a = base b /\ variable a = variable b /\ scale a = scale b /\ mask a = mask b.
Proof. unfold same_call. rewrite !andb_true_iff, !Nat.eqb_eq. tauto. Qed.

Lemma address_ok mem e first g c : same_call first g = true -> plain g -> no_overflow e g -> In c (consts g) ->
  val mem (compute_base e first) (Z.quot (extract_int c) 4) = word mem (address e g c).
Proof.
  intros Sc P [Ns No] I. destruct (same_call_eq first g Sc) as (Ef & Eb & Ev & Es & _).
  destruct (P c I) as [R D]. unfold val. rewrite (wraps64_four c D).
  unfold compute_base, address, width in *. unfold is64 in *. rewrite Ef, Eb, Ev, Es.
  destruct (Nat.leb 2 (func g)).
  - apply word_mod. rewrite wraps_wrapu by lia.
    destruct (wraps_ex 64 (e (variable g) * e (scale g)) ltac:(lia)) as [k1 ->].
    destruct (wraps_ex 64 (e (variable g)) ltac:(lia)) as [k2 ->].
    rewrite (wraps_id 32 (e (scale g))); [|lia|unfold in_s; lia].
    apply (mod_shift _ _ (k2 * e (scale g) - k1)). lia.
  - f_equal. cbn in R. specialize (No eq_refl).
    rewrite (wraps_id 64 c); [|lia|unfold in_s; lia]. rewrite (wraps_id 32 c); [|lia|unfold in_s; lia].
    rewrite (wraps_id 32 (e (scale g))); [|lia|unfold in_s; lia].
    f_equal. f_equal. rewrite wraps_wrapu by lia.
    rewrite <- (wraps_id 32 (wraps 32 (e (variable g)) * e (scale g))) by (unfold in_s; lia).
    apply wraps_congr. rewrite <- wrapu_mul, <- (wrapu_mul 32 (wraps 32 _)). rewrite wrapu_wraps by lia. reflexivity.
Qed.

(** ** Groups *)

Lemma in_flat_map_consts group c : In c (flat_map consts group) -> exists g, In g group /\ In c (consts g).
Proof. intro H. apply in_flat_map in H. exact H. Qed.

Lemma nth_error_piece {A} (l : list A) k a b c d : piece 4 (4 * k) l = [a; b; c; d] ->
  nth_error l (4 * k) = Some a /\ nth_error l (4 * k + 1) = Some b /\
  nth_error l (4 * k + 2) = Some c /\ nth_error l (4 * k + 2 + 1) = Some d.
Proof.
  unfold piece. set (m := (4 * k)%nat). clearbody m. revert l. induction m as [|m IH]; intros l H.
  - destruct l as [|x0 [|x1 [|x2 [|x3 l]]]]; cbn in H; try discriminate. injection H as <- <- <- <-. cbn. auto.
  - destruct l as [|x l]; [cbn in H; discriminate|]. cbn [skipn] in H. cbn [Nat.add nth_error]. apply IH, H.
Qed.

Lemma quot_next x y : 0 <= y < 2 ^ 64 -> (4 | x) -> (4 | y) ->
  Z.quot (extract_int x) 4 + 1 = Z.quot (extract_int y) 4 -> wrapu 64 (x + 4) = y.
Proof.
  intros Ry Dx Dy H. pose proof (wraps64_four x Dx) as X. pose proof (wraps64_four y Dy) as Y.
  destruct (wraps_ex 64 x ltac:(lia)) as [k1 E1]. destruct (wraps_ex 64 y ltac:(lia)) as [k2 E2].
  assert (E : x + 4 = y + (k2 - k1) * 2 ^ 64) by lia.
  rewrite E. unfold wrapu. rewrite Z_mod_plus_full. apply Z.mod_small, Ry.
Qed.

Lemma split8_two ops o : In o (split8 ops) -> count o = 2 -> exists o', In o' ops /\ count o' = 2.
Proof.
  unfold split8. intros H C. apply in_flat_map in H as (q & Hq & Ho). exists q. split; [exact Hq|].
  destruct (count q =? 8); cbn [In] in Ho.
  - destruct Ho as [<-|[<-|[]]]; discriminate C.
  - destruct Ho as [<-|[]]. exact C.
Qed.

Lemma similar_count ops ops' o : similar ops ops' -> In o ops' -> exists o', In o' ops /\ count o' = count o.
Proof.
  induction 1 as [|q q' l l' [A B] R IH]; intro H; [destruct H|].
  destruct H as [<-|H].
  - exists q. split; [left; reflexivity|congruence].
  - destruct (IH H) as (r & Hr & E). exists r. split; [right; exact Hr|exact E].
Qed.

Lemma careful_group strict group ops ops' : no_halves strict group ->
  (forall g, In g group -> plain g) -> select_loads (extract_consts 4 group) = Some ops -> similar ops ops' ->
  forall n, length (extract_consts 4 group) = (4 * n)%nat ->
  forall c, In c (match chunks4 (extract_consts 4 group) with Some c => c | None => [] end) ->
  careful strict (split8 ops') c.
Proof.
  intros [N|[N|N]] P E S n L c I.
  - left. exact N.
  - right; left. intros o Ho C. destruct (split8_two _ _ Ho C) as (q & Hq & Cq).
    destruct (similar_count _ _ _ S Hq) as (r & Hr & Cr). apply (N ops r E Hr). congruence.
  - right; right. destruct (chunks4_ok n _ L) as (cs & Ec & Lc & Nt & Ic). rewrite Ec in I.
    destruct (Ic c I) as [L4 _]. apply In_nth with (d := []) in I as (k & Hk & Ek).
    rewrite Nt in Ek by lia.
    destruct c as [|a [|b [|c [|d [|]]]]]; cbn [length] in L4; try lia.
    apply nth_error_piece in Ek as (Ea & Eb & Ecc & Ed).
    unfold extract_consts in Ea, Eb, Ecc, Ed.
    rewrite nth_error_map in Ea, Eb, Ecc, Ed.
    assert (X : forall i z, option_map (fun c : Z => Z.quot (extract_int c) 4) (nth_error (flat_map consts group) i) = Some z ->
       exists x, nth_error (flat_map consts group) i = Some x /\ z = Z.quot (extract_int x) 4 /\ 0 <= x < 2 ^ 64 /\ (4 | x)).
    { intros i z H. destruct (nth_error (flat_map consts group) i) as [x|] eqn:Ex; [|discriminate H].
      exists x. split; [reflexivity|]. cbn in H. injection H as <-. split; [reflexivity|].
      apply nth_error_In in Ex. apply in_flat_map in Ex as (g & Hg & Hx). apply (plain_range g); auto. }
    destruct (X _ _ Ea) as (xa & Na & -> & Ra & Da). destruct (X _ _ Eb) as (xb & Nb & -> & Rb & Db).
    destruct (X _ _ Ecc) as (xc & Nc & -> & Rc & Dc). destruct (X _ _ Ed) as (xd & Nd & -> & Rd & Dd).
    assert (Ev : Nat.even (4 * k) = true) by (apply Nat.even_spec; exists (2 * k)%nat; lia).
    assert (Ev2 : Nat.even (4 * k + 2) = true) by (apply Nat.even_spec; exists (2 * k + 1)%nat; lia).
    split; intro Q.
    + apply (N _ _ _ Ev Na Nb). apply quot_next; assumption.
    + apply (N _ _ _ Ev2 Nc Nd). apply quot_next; assumption.
Qed.

Theorem coalesce_ok strict n e mem first group :
  In first group -> (forall g, In g group -> same_call first g = true /\ full n g /\ plain g /\ no_overflow e g) ->
  width_ok n (length group) -> no_halves strict group ->
  coalesce strict n e mem group = Some (map (gathered mem e) group).
Proof.
  intros I0 H W Nh. unfold coalesce. destruct group as [|g0 rest]; [destruct I0|].
  set (group := g0 :: rest) in *.
  assert (Fu : forall g, In g group -> length (consts g) = n) by (intros g Hg; destruct (H g Hg) as (_ & F & _); exact F).
  assert (Q : forallb (fun g => Nat.eqb (length (consts g)) n) group = true).
  { apply forallb_forall. intros g Hg. apply Nat.eqb_eq, Fu, Hg. }
  rewrite Q.
  assert (Sc0 : forall g, In g group -> same_call g0 g = true).
  { intros g Hg. destruct (H g Hg) as (S & _). destruct (H g0 (or_introl eq_refl)) as (S0 & _).
    apply same_call_eq in S. apply same_call_eq in S0. unfold same_call. rewrite !andb_true_iff, !Nat.eqb_eq.
    intuition congruence. }
  set (offs := extract_consts 4 group).
  destruct (select_loads_ok offs) as (ops & E & Ap & Sz & Co & _ & _). rewrite E.
  destruct (emit_loads_ok mem (compute_base e g0) ops Sz) as (ops' & E' & Si & Go). rewrite E'.
  destruct (split8_ok mem (compute_base e g0) ops' Go (similar_apart _ _ Si Ap)) as (A1 & A2 & A3 & _ & A5).
  assert (Lo : length offs = (n * length group)%nat).
  { unfold offs, extract_consts. rewrite map_length. apply flat_map_const_length, Fu. }
  assert (M : exists m, n = (4 * m)%nat).
  { destruct W as [->|[->|[->|[[->| ->] _]]]]; [exists 1%nat|exists 2%nat|exists 4%nat|exists 8%nat|exists 16%nat]; lia. }
  destruct M as (m & Nm).
  rewrite (assemble_results_ok mem (compute_base e g0) strict n (split8 ops') offs (length group)); auto.
  - f_equal. etransitivity; [|apply (flat_map_piece (gathered mem e) n)].
    + apply map_ext. intro i. f_equal. unfold offs, extract_consts. rewrite map_map.
      assert (G : forall l, (forall g, In g l -> In g group) ->
        map (fun x => Some (val mem (compute_base e g0) (Z.quot (extract_int x) 4))) (flat_map consts l) =
        flat_map (gathered mem e) l).
      { induction l as [|g l IH]; intro Hl; [reflexivity|]. cbn [flat_map]. rewrite map_app, IH.
        - f_equal. unfold gathered. apply map_ext_in. intros c Hc. f_equal.
          destruct (H g (Hl g (or_introl eq_refl))) as (_ & _ & P & No).
          apply (address_ok mem e g0 g c); auto. apply Sc0, Hl. left. reflexivity.
        - intros x Hx. apply Hl. right. exact Hx. }
      apply G. auto.
    + intros g Hg. unfold gathered. rewrite map_length. apply Fu, Hg.
  - apply (careful_group strict group ops ops' Nh) with (n := (m * length group)%nat); auto.
    + intros g Hg. destruct (H g Hg) as (_ & _ & P & _). exact P.
    + fold offs. lia.
  - intros x Hx. apply A5. apply (similar_cover ops ops' x Si). apply Co, Hx.
Qed.

(** ** Faults *)

Lemma page_mod a : wrapu 64 a / 4096 = (a / 4096) mod 2 ^ 52.
Proof. unfold wrapu. change (2 ^ 64) with (4096 * 2 ^ 52). rewrite Z.rem_mul_r by lia.
  rewrite (Z.mul_comm 4096), Z_div_plus by lia.
  rewrite (Z.div_small (a mod 4096)) by (apply Z.mod_pos_bound; lia). reflexivity.
Qed.

Theorem reads_between l ops base o a : select_loads l = Some ops -> In o ops -> In a (load_reads base o) ->
  exists x y, In x l /\ In y l /\ y - x <= 3 /\ base + 4 * x <= a <= base + 4 * y + 3.
Proof.
  intros E Ho Ha. destruct (select_loads_ok l) as (ops' & E' & _ & _ & _ & _ & Be).
  rewrite E in E'. injection E' as <-. unfold load_reads in Ha. apply in_map_iff in Ha as (i & <- & Hi).
  apply in_seq in Hi.
  assert (R : range o (start o + Z.of_nat i / 4)).
  { unfold range. assert (0 <= Z.of_nat i / 4 < count o); [|lia]. split; [apply Z.div_pos; lia|].
    apply Z.div_lt_upper_bound; lia. }
  destruct (Be o _ Ho R) as (x & y & Hx & Hy & B & D). exists x, y. split; [exact Hx|]. split; [exact Hy|].
  split; [exact D|]. pose proof (Z.div_mod (Z.of_nat i) 4). pose proof (Z.mod_pos_bound (Z.of_nat i) 4). lia.
Qed.

Theorem no_fault mapped l ops base o a : paged mapped ->
  (forall x k, In x l -> 0 <= k < 4 -> mapped (wrapu 64 (base + 4 * x + k))) ->
  select_loads l = Some ops -> In o ops -> In a (load_reads base o) -> mapped (wrapu 64 a).
Proof.
  intros Pg M E Ho Ha. destruct (reads_between l ops base o a E Ho Ha) as (x & y & Hx & Hy & D & B).
  assert (X : a / 4096 = (base + 4 * x) / 4096 \/ a / 4096 = (base + 4 * y + 3) / 4096).
  { assert (L : base + 4 * y + 3 <= base + 4 * x + 15) by lia.
    destruct (Z.le_gt_cases ((base + 4 * x) / 4096 + 1) (a / 4096)) as [Q|Q].
    - right. assert (a / 4096 <= (base + 4 * y + 3) / 4096) by (apply Z.div_le_mono; lia).
      assert ((base + 4 * y + 3) / 4096 <= (base + 4 * x) / 4096 + 1); [|lia].
      transitivity ((base + 4 * x + 1 * 4096) / 4096); [apply Z.div_le_mono; lia|].
      rewrite Z_div_plus by lia. lia.
    - left. assert ((base + 4 * x) / 4096 <= a / 4096) by (apply Z.div_le_mono; lia). lia. }
  destruct X as [X|X].
  - apply (Pg (base + 4 * x + 0) a); [rewrite !page_mod, X, Z.add_0_r; reflexivity|]. apply M; [exact Hx|lia].
  - apply (Pg (base + 4 * y + 3) a); [rewrite !page_mod, X; reflexivity|]. apply M; [exact Hy|lia].
Qed.

(** No element is loaded twice. *)
Theorem loaded_once l ops : select_loads l = Some ops ->
  forall i j oi oj z, nth_error ops i = Some oi -> nth_error ops j = Some oj ->
  start oi <= z < start oi + count oi -> start oj <= z < start oj + count oj -> i = j.
Proof.
  intros E. destruct (select_loads_ok l) as (ops' & E' & Ap & Sz & _). rewrite E in E'. injection E' as <-.
  assert (G : forall ops i j oi oj z, apart ops -> (i < j)%nat -> nth_error ops i = Some oi -> nth_error ops j = Some oj ->
    start oi <= z < start oi + count oi -> start oj <= z < start oj + count oj -> False).
  { clear. induction ops as [|o ops IH]; intros i j oi oj z A L Ei Ej Ri Rj; [destruct i; discriminate|].
    inversion A; subst. destruct j as [|j]; [lia|]. cbn [nth_error] in Ej. destruct i as [|i].
    - cbn in Ei. injection Ei as <-. apply nth_error_In in Ej. rewrite Forall_forall in H2. specialize (H2 oj Ej). lia.
    - apply (IH i j oi oj z H1 ltac:(lia) Ei Ej Ri Rj). }
  intros i j oi oj z Ei Ej Ri Rj. destruct (Nat.lt_total i j) as [L|[Q|L]]; [|exact Q|].
  - exfalso. apply (G ops i j oi oj z); assumption.
  - exfalso. apply (G ops j i oj oi z); assumption.
Qed.
