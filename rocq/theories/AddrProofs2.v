(** Proofs that the analyses of equal lanes are right. *)

From Coq Require Import ZArith List Bool Lia.
From Verif Require Import Bits AddrModel AddrSpec AddrProofs.
Import ListNotations.
Open Scope Z_scope.

(** ** Arithmetic *)

Lemma or_is_add x y : Z.land x y = 0 -> Z.lor x y = x + y.
Proof. intro H. rewrite <- Z.lxor_lor by exact H. symmetry. apply Z.add_nocarry_lxor, H. Qed.

Lemma add_val r o w x y :
  is_add o = true -> (forall d, o = Or d -> d = true -> Z.land x y = 0) ->
  bop_val r o w x y = wrapu w (x + y).
Proof.
  intros A H. unfold bop_val. destruct o; cbn [is_add] in A; try discriminate; [reflexivity|].
  rewrite or_is_add; [reflexivity|]. apply (H _ eq_refl A).
Qed.

Lemma mult_add w a x y :
  0 < w -> 0 <= a -> in_u w x -> in_u w y ->
  x mod 2 ^ a = 0 -> y mod 2 ^ a = 0 -> wrapu w (x + y) mod 2 ^ a = 0.
Proof.
  intros Hw Ha Rx Ry X Y. unfold in_u, wrapu in *.
  assert (Pa : 0 < 2 ^ a) by (apply pow2_pos; lia).
  destruct (Z_le_gt_dec a w) as [L|G].
  - replace (2 ^ w) with (2 ^ a * 2 ^ (w - a)).
    2:{ rewrite <- Z.pow_add_r by lia. f_equal. lia. }
    rewrite Z.rem_mul_r.
    2:{ lia. } 2:{ apply pow2_pos. lia. }
    rewrite Z.mul_comm, Z.mod_add by lia. rewrite Z.mod_mod by lia.
    rewrite Z.add_mod, X, Y by lia. reflexivity.
  - assert (2 ^ w <= 2 ^ a) by (apply Z.pow_le_mono_r; lia).
    rewrite Z.mod_small in X, Y by lia. subst. reflexivity.
Qed.

Lemma div_same_block a k m r r' :
  0 <= a <= k -> 0 <= r < 2 ^ a -> 0 <= r' < 2 ^ a ->
  (2 ^ a * m + r) / 2 ^ k = (2 ^ a * m + r') / 2 ^ k.
Proof.
  intros H R R'. assert (Pa : 0 < 2 ^ a) by (apply pow2_pos; lia).
  assert (Pk : 0 < 2 ^ (k - a)) by (apply pow2_pos; lia).
  replace (2 ^ k) with (2 ^ a * 2 ^ (k - a)).
  2:{ rewrite <- Z.pow_add_r by lia. f_equal. lia. }
  rewrite <- !Z.div_div by lia.
  rewrite !(Z.mul_comm (2 ^ a) m), !Z.div_add_l by lia.
  rewrite !(Z.div_small r), !(Z.div_small r') by lia. reflexivity.
Qed.

(** [x + c] and [x + c'] have the same quotient when [x] is a multiple of
    [2^a], and [c], [c'] agree above bit [k] and have remainders below [2^a]. *)
Lemma add_same_quot w a k x c c' :
  0 < w -> 0 <= a <= k -> a <= w -> in_u w x -> x mod 2 ^ a = 0 ->
  c / 2 ^ k = c' / 2 ^ k -> c mod 2 ^ k < 2 ^ a -> c' mod 2 ^ k < 2 ^ a ->
  wrapu w (x + c) / 2 ^ k = wrapu w (x + c') / 2 ^ k.
Proof.
  intros Hw Hk Haw Rx X Q M M'.
  assert (Pa : 0 < 2 ^ a) by (apply pow2_pos; lia).
  assert (Pk : 0 < 2 ^ k) by (apply pow2_pos; lia).
  assert (Pw : 0 < 2 ^ w) by (apply pow2_pos; lia).
  pose proof (Z.div_mod c (2 ^ k) ltac:(lia)) as D.
  pose proof (Z.div_mod c' (2 ^ k) ltac:(lia)) as D'.
  pose proof (Z.mod_pos_bound c (2 ^ k) Pk). pose proof (Z.mod_pos_bound c' (2 ^ k) Pk).
  set (r := c mod 2 ^ k) in *. set (r' := c' mod 2 ^ k) in *. rewrite <- Q in D'.
  set (q := c / 2 ^ k) in *.
  assert (Ek : 2 ^ k = 2 ^ a * 2 ^ (k - a)).
  { rewrite <- Z.pow_add_r by lia. f_equal. lia. }
  assert (Ew : 2 ^ w = 2 ^ a * 2 ^ (w - a)).
  { rewrite <- Z.pow_add_r by lia. f_equal. lia. }
  assert (Ex : x = 2 ^ a * (x / 2 ^ a)).
  { pose proof (Z.div_mod x (2 ^ a) ltac:(lia)). lia. }
  set (m := x / 2 ^ a + 2 ^ (k - a) * q).
  assert (E : forall s, 0 <= s < 2 ^ a ->
            wrapu w (2 ^ a * m + s) = 2 ^ a * (m mod 2 ^ (w - a)) + s).
  { intros s S. unfold wrapu. rewrite Ew.
    rewrite Z.rem_mul_r.
    2:{ lia. } 2:{ apply pow2_pos. lia. }
    rewrite (Z.mul_comm (2 ^ a) m), Z.div_add_l, Z.div_small, Z.add_0_r by lia.
    rewrite Z.add_comm with (m := s), Z.mod_add, Z.mod_small by lia. lia. }
  replace (x + c) with (2 ^ a * m + r).
  2:{ unfold m. rewrite D, Ek. rewrite Ex at 2. ring. }
  replace (x + c') with (2 ^ a * m + r').
  2:{ unfold m. rewrite D', Ek. rewrite Ex at 2. ring. }
  rewrite !E by lia. apply div_same_block; lia.
Qed.

Lemma ashr_same_quot w k u u' :
  0 <= k < w -> in_u w u -> in_u w u' -> u / 2 ^ k = u' / 2 ^ k ->
  wraps w u / 2 ^ k = wraps w u' / 2 ^ k.
Proof.
  intros Hk R R' Q.
  assert (Pk : 0 < 2 ^ k) by (apply pow2_pos; lia).
  assert (E1 : 2 ^ (w - 1) = 2 ^ k * 2 ^ (w - 1 - k)).
  { rewrite <- Z.pow_add_r by lia. f_equal. lia. }
  assert (E2 : 2 ^ w = 2 ^ k * 2 ^ (w - k)).
  { rewrite <- Z.pow_add_r by lia. f_equal. lia. }
  assert (S : forall v, in_u w v -> (v <? 2 ^ (w - 1)) = (v / 2 ^ k <? 2 ^ (w - 1 - k))).
  { intros v V. rewrite E1. apply eq_true_iff_eq. rewrite !Z.ltb_lt. split; intro H.
    - apply Z.div_lt_upper_bound; lia.
    - apply Z.nle_gt. intro G. apply Z.div_le_lower_bound in G; lia. }
  rewrite !wraps_of_u by (auto; lia).
  rewrite (S u R), (S u' R'), <- Q.
  destruct (u / 2 ^ k <? 2 ^ (w - 1 - k)); [exact Q|].
  rewrite E2. replace (u - 2 ^ k * 2 ^ (w - k)) with (u + (- 2 ^ (w - k)) * 2 ^ k) by ring.
  replace (u' - 2 ^ k * 2 ^ (w - k)) with (u' + (- 2 ^ (w - k)) * 2 ^ k) by ring.
  rewrite !Z.div_add by lia. lia.
Qed.

Lemma splat_spec {A} (eqb : A -> A -> bool) (H : forall x y, eqb x y = true -> x = y) l x :
  splat_of eqb l = Some x -> forall y, In y l -> y = x.
Proof.
  destruct l as [|a l]; [discriminate|]. cbn [splat_of].
  destruct (forallb (eqb a) l) eqn:E; [|discriminate]. intro X. injection X as ->.
  rewrite forallb_forall in E. intros y [->|I]; [reflexivity|]. symmetry. apply H, E, I.
Qed.

Lemma celt_eqb_eq a b : celt_eqb a b = true -> a = b.
Proof.
  destruct a, b; cbn [celt_eqb]; try discriminate; try reflexivity;
    rewrite ?andb_true_iff, ?Nat.eqb_eq, ?Z.eqb_eq; intuition congruence.
Qed.

Lemma zeqb_eq x y : (x =? y) = true -> x = y.
Proof. apply Z.eqb_eq. Qed.

Lemma nateqb_eq x y : Nat.eqb x y = true -> x = y.
Proof. apply Nat.eqb_eq. Qed.

(** The elements of a constant vector, as the code reads them. *)
Lemma ints_spec n T r e l :
  well n T true e -> tame n e -> ints n e = Some l ->
  length l = n /\ (forall j, (j < n)%nat -> eval r e j = nth j l 0) /\
  Forall (in_u (width e)) l.
Proof.
  intros W Tm E. destruct e; cbn [ints] in E; try discriminate; injection E as <-;
    cbn [well width eval tame] in *.
  - split; [apply repeat_length|]. split; [intros j Hj; symmetry; apply nth_repeat|].
    apply Forall_forall. intros x X. apply repeat_spec in X. subst.
    split; [lia|apply pow2_pos; lia].
  - destruct W as (_ & Hw & L & F). rewrite Forall_forall in F, Tm.
    assert (G : forall x, In x l0 -> wraps 64 (wrapu w x) = x).
    { intros x X. specialize (F x X). specialize (Tm x X).
      rewrite wrapu_id by exact F. apply wraps_id; [lia|]. unfold in_s, in_u in *.
      change (64 - 1) with 63. assert (0 < 2 ^ 63) by (apply pow2_pos; lia). lia. }
    split; [rewrite map_length; exact L|].
    assert (E : map (fun x => wraps 64 (wrapu w x)) l0 = l0).
    { rewrite (map_ext_in _ (fun x => x)) by exact G. apply map_id. }
    rewrite E. split.
    + intros j Hj. apply wrapu_id. apply F, nth_In. lia.
    + apply Forall_forall. exact F.
Qed.

Lemma quot_div_nonneg x b : 0 <= x -> 0 < b -> Z.quot x b = x / b.
Proof. intros. apply Z.quot_div_nonneg; lia. Qed.

Lemma all_quot_equal_spec b l :
  0 < b -> Forall (fun x => 0 <= x) l -> all_quot_equal b l = true ->
  forall x y, In x l -> In y l -> x / b = y / b.
Proof.
  intros Hb F E. destruct l as [|a l]; [intros x y []|]. cbn [all_quot_equal] in E.
  rewrite forallb_forall in E. rewrite Forall_forall in F.
  assert (G : forall x, In x (a :: l) -> x / b = a / b).
  { intros x [->|X]; [reflexivity|]. specialize (E x X). apply Z.eqb_eq in E.
    rewrite !quot_div_nonneg in E; auto; apply F; [left; reflexivity|right; exact X]. }
  intros x y X Y. rewrite (G x X), (G y Y). reflexivity.
Qed.

Lemma fold_max_spec (f : Z -> Z) l m0 :
  let m := fold_left (fun m y => Z.max m (f y)) l m0 in
  m0 <= m /\ (forall y, In y l -> f y <= m) /\ (m = m0 \/ exists y, In y l /\ m = f y).
Proof.
  revert m0. induction l as [|a l IH]; intros m0; cbn [fold_left].
  - split; [lia|]. split; [intros y []|left; reflexivity].
  - destruct (IH (Z.max m0 (f a))) as (A & B & C). split; [lia|]. split.
    + intros y [->|Y]; [lia|apply B, Y].
    + destruct C as [C|(y & Y & C)].
      * destruct (Z.max_spec m0 (f a)) as [[_ M]|[_ M]].
        -- right. exists a. split; [left; reflexivity|]. rewrite C. exact M.
        -- left. rewrite C. exact M.
      * right. exists y. split; [right; exact Y|exact C].
Qed.

(** The largest remainder, when the constants fit an int. *)
Lemma max_mod_spec k l :
  0 <= k -> l <> [] -> Forall (fun x => 0 <= x < 2 ^ 31) l ->
  (forall y, In y l -> y mod 2 ^ k <= max_mod (2 ^ k) l) /\
  exists x, In x l /\ max_mod (2 ^ k) l = x mod 2 ^ k.
Proof.
  intros Hk Hl F. destruct l as [|a l]; [congruence|]. cbn [max_mod].
  rewrite Forall_forall in F.
  assert (Pk : 0 < 2 ^ k) by (apply pow2_pos; lia).
  assert (G : forall x, In x (a :: l) -> wraps 32 (Z.rem x (2 ^ k)) = x mod 2 ^ k).
  { intros x X. specialize (F x X). rewrite Z.rem_mod_nonneg by lia.
    apply wraps_id; [lia|]. unfold in_s. change (32 - 1) with 31.
    pose proof (Z.mod_pos_bound x (2 ^ k) Pk).
    pose proof (Z.mod_le x (2 ^ k) ltac:(lia) Pk). lia. }
  pose proof (fold_max_spec (fun y => wraps 32 (Z.rem y (2 ^ k))) l (wraps 32 (Z.rem a (2 ^ k))))
    as H. cbv zeta beta in H.
  set (m := fold_left _ l _) in *. destruct H as (A & B & C). split.
  - intros y Y. rewrite <- (G y Y). destruct Y as [->|Y]; [exact A|apply B, Y].
  - destruct C as [C|(y & Y & C)].
    + exists a. split; [left; reflexivity|]. rewrite C. apply G. left. reflexivity.
    + exists y. split; [right; exact Y|]. rewrite C. apply G. right. exact Y.
Qed.

Section Unfold.
Variables (n : nat) (P : prog) (strict : bool).

Lemma all_equal_S f e seen : all_equal n P strict (S f) e seen =
    if Nat.eqb n 1 then true
    else match e with
    | Zero _ => true
    | CVec _ l => is_some (splat_of celt_eqb l)
                  && negb (existsb (fun c => match c with EUndef => true | _ => false end) l)
    | Data _ l => is_some (splat_of Z.eqb l)
    | Bin o _ _ a b =>
        (all_equal n P strict f a seen && all_equal n P strict f b seen) ||
        (match o with
         | AShr | LShr =>
             match ints n b with
             | Some (k :: ks) =>
                 forallb (Z.eqb k) ks && (0 <=? k) && (k <=? 30)
                 && all_div n P strict f (2 ^ k) a []
             | _ => false
             end
         | _ => false
         end)
    | Cast _ _ a => all_equal n P strict f a seen
    | Insert _ _ _ => is_some (flatten n true false e)
    | Phi _ _ p =>
        in_seen strict TEq p seen ||
        forallb (fun i => all_equal n P strict f i ((TEq, p) :: seen)) (P p)
    | Shuf _ m => is_some (splat_of Nat.eqb m)
    | SInt _ _ | Undef _ | Leaf _ _ _ _ => false
    end.
Proof. reflexivity. Qed.

Lemma all_div_S f base e seen : all_div n P strict (S f) base e seen =
(    all_equal n P strict f e seen ||
    match ints n e with
    | Some l => all_quot_equal base l
    | None =>
        match e with
        | Phi _ _ p =>
            in_seen strict (TDiv base) p seen ||
            forallb (fun i => all_div n P strict f base i ((TDiv base, p) :: seen)) (P p)
        | Bin o _ _ a b =>
            if is_add o then
              match ints n b with
              | Some l =>
                  all_quot_equal base l && all_equal n P strict f a seen
                  && is_multiple n P strict f (round_up_pow2 (max_mod base l)) a []
              | None => false
              end
            else false
        | _ => false
        end
    end).
Proof. reflexivity. Qed.

Lemma is_multiple_S f base e seen : is_multiple n P strict (S f) base e seen =
(    (0 <? base) &&
    match e with
    | SInt w z => wrapu w z mod base =? 0
    | Insert _ _ _ | Shuf _ _ =>
        all_equal n P strict f e [] &&
        match flatten n true false e with
        | Some x => is_multiple n P strict f base x seen
        | None => false
        end
    | Phi vec _ p =>
        (if vec then all_equal n P strict f e [] else true) &&
        (existsb (Nat.eqb p) seen ||
         forallb (fun i => is_multiple n P strict f base i (p :: seen)) (P p))
    | Bin o _ _ a b =>
        is_add o && is_multiple n P strict f base a seen && is_multiple n P strict f base b seen
    | _ => false
    end).
Proof. reflexivity. Qed.

End Unfold.

(** ** The analyses *)

Section Sound.

Variables (n : nat) (T : nat -> bool * Z) (P : prog) (tr : nat -> env).
Hypothesis Hrun : run P tr.
Hypothesis HP : well_prog n T P.

Definition Q (t : nat) (x : exp) : Prop := tame n x /\ ors_ok (tr t) n x.

Definition good (e : exp) : Prop := forall t, every (Q t) false e.

Hypothesis HG : forall p i, In i (P p) -> good i.

Lemma Q_celt t w c : every (Q t) false (celt_exp w c).
Proof.
  destruct c; cbn [celt_exp every]; unfold Q; cbn [tame ors_ok]; intuition discriminate.
Qed.

Lemma phi_value t v w p :
  T p = (v, w) -> e_phi (tr t) p <> None ->
  exists t' i, (t' < t)%nat /\ In i (P p) /\ defined (tr t') i /\
    forall lane, eval (tr t) (Phi v w p) lane = eval (tr t') i (if v then lane else 0%nat).
Proof.
  intros HT. induction t as [|t IH]; intro N.
  - destruct Hrun as [H0 _]. rewrite H0 in N. congruence.
  - destruct Hrun as [_ Hs]. destruct (Hs t p) as [E|(i & I & D & E)].
    + rewrite E in N. destruct (IH N) as (t' & i & Lt & I & D & V).
      exists t', i. split; [lia|]. split; [exact I|]. split; [exact D|].
      intro lane. rewrite <- (V lane). cbn [eval]. rewrite E. reflexivity.
    + exists t, i. split; [lia|]. split; [exact I|]. split; [exact D|].
      intro lane. cbn [eval]. rewrite E. apply wrapu_id.
      destruct (HP p i I) as [W L]. rewrite HT in W, L. cbn [fst snd] in W, L.
      rewrite <- L. eapply eval_range, W.
Qed.

Definition multiple (t : nat) (b : Z) (e : exp) : Prop :=
  defined (tr t) e -> forall i, (i < n)%nat -> eval (tr t) e i mod b = 0.

Lemma good_add t o nsw w a b i :
  good (Bin o nsw w a b) -> is_add o = true -> defined (tr t) (Bin o nsw w a b) -> (i < n)%nat ->
  eval (tr t) (Bin o nsw w a b) i = wrapu w (eval (tr t) a i + eval (tr t) b i).
Proof.
  intros G A D Hi. cbn [eval]. apply add_val; [exact A|].
  intros d -> ->. specialize (G t). cbn [every] in G.
  destruct G as [G _]. destruct (G eq_refl) as [_ G2]. cbn [ors_ok] in G2. apply G2; auto.
Qed.

Lemma good_bin o nsw w a b : good (Bin o nsw w a b) -> good a /\ good b.
Proof. intro G. split; intro t; specialize (G t); cbn [every] in G; tauto. Qed.

Lemma good_tame e : good e -> tame n e.
Proof. intro G. specialize (G 0%nat). destruct e; cbn [every] in G; destruct G as [G _]; apply G; reflexivity. Qed.

Lemma good_flatten und v e x :
  well n T v e -> good e -> flatten n und false e = Some x ->
  well n T false x /\ width x = width e /\ good x /\
  (forall r j, (j < n)%nat -> eval r e j = eval r x j) /\
  (forall r, defined r e -> defined r x).
Proof.
  intros W G E.
  assert (W' : well n T true e).
  { destruct e; cbn [flatten] in E; try discriminate; cbn [well] in *; tauto. }
  assert (C : match e with
              | Insert _ _ _ => (forall j, (j < n)%nat -> covers e j) /\ flat_chain e
              | _ => True
              end).
  { pose proof (good_tame e G) as Tm. destruct e; exact Logic.I || exact Tm. }
  assert (H := fun t => flatten_sound n T (Q t) (Q_celt t) und e x W' (G t) C E).
  destruct (H 0%nat) as (A & B & _ & D & F).
  split; [exact A|]. split; [exact B|]. split; [intro t; apply H|]. split; assumption.
Qed.

Lemma is_multiple_sound t : forall f a e seen v strict,
  0 <= a -> well n T v e -> good e ->
  is_multiple n P strict f (2 ^ a) e seen = true ->
  (forall t' p v w, (t' <= t)%nat -> In p seen -> T p = (v, w) -> multiple t' (2 ^ a) (Phi v w p)) ->
  multiple t (2 ^ a) e.
Proof.
  induction t as [t IHt] using lt_wf_ind.
  induction f as [|f IHf]; intros a e seen v strict Ha W G E A D i' Hi; [discriminate|].
  rewrite is_multiple_S in E. apply andb_true_iff in E. destruct E as [_ E].
  destruct e; try discriminate.
  - cbn [eval]. apply Z.eqb_eq in E. exact E.
  - apply andb_true_iff in E. destruct E as [E E2]. apply andb_true_iff in E. destruct E as [E0 E1].
    cbn [defined] in D. destruct D as [D1 D2].
    cbn [well] in W. destruct W as (Hw & W1 & W2 & L1 & L2).
    destruct (good_bin _ _ _ _ _ G) as [G1 G2].
    rewrite (good_add t); [|exact G|exact E0|split; assumption|exact Hi].
    apply mult_add; auto.
    + rewrite <- L1. eapply eval_range; eassumption.
    + rewrite <- L2. eapply eval_range; eassumption.
    + eapply (IHf a e1 seen v strict); eassumption.
    + eapply (IHf a e2 seen v strict); eassumption.
  - apply andb_true_iff in E. destruct E as [_ E].
    destruct (flatten n true false (Insert e1 e2 i)) as [x|] eqn:F; [|discriminate].
    destruct (good_flatten true v _ x W G F) as (Wx & Lx & Gx & Vx & Dx).
    rewrite (Vx _ _ Hi). eapply (IHf a x seen false strict); try eassumption. apply Dx, D.
  - apply andb_true_iff in E. destruct E as [_ E].
    destruct (flatten n true false (Shuf e m)) as [x|] eqn:F; [|discriminate].
    destruct (good_flatten true v _ x W G F) as (Wx & Lx & Gx & Vx & Dx).
    rewrite (Vx _ _ Hi). eapply (IHf a x seen false strict); try eassumption. apply Dx, D.
  - cbn [well] in W. destruct W as (-> & HT & Hw).
    apply andb_true_iff in E. destruct E as [E0 E].
    destruct (existsb (Nat.eqb n0) seen) eqn:X; cbn [orb] in E.
    + apply existsb_exists in X. destruct X as (p & I & X). apply Nat.eqb_eq in X. subst p.
      apply (A t n0 v w); auto.
    + cbn [defined] in D.
      destruct (phi_value t v w n0 HT D) as (t' & j & Lt & I & Dj & V).
      rewrite V. rewrite forallb_forall in E.
      destruct (HP n0 j I) as [Wj Lj]. rewrite HT in Wj, Lj. cbn [fst snd] in Wj, Lj.
      assert (M : multiple t' (2 ^ a) j).
      { eapply (IHt t' Lt f a j (n0 :: seen) v strict); auto.
        - apply HG with n0. exact I.
        - intros t'' p v' w' Lt' [->|Ip] HT'.
          + rewrite HT in HT'. injection HT' as <- <-.
            eapply (IHt t'' ltac:(lia) (S f) a (Phi v w p) seen v strict); auto.
            * cbn [well]. auto.
            * rewrite is_multiple_S. rewrite E0, X. cbn [orb andb].
              apply andb_true_iff. split; [|apply forallb_forall; exact E].
              apply Z.ltb_lt, pow2_pos; lia.
            * intros t3 p3 v3 w3 Lt3. apply A. lia.
          + apply A; auto. lia. }
      apply (M Dj). destruct v; [exact Hi|lia].
Qed.

Definition holds (t : nat) (g : tag) (e : exp) : Prop :=
  defined (tr t) e ->
  match g with
  | TEq => lanes_equal (tr t) n e
  | TDiv b => forall i j, (i < n)%nat -> (j < n)%nat -> eval (tr t) e i / b = eval (tr t) e j / b
  | TLin s => lanes_linear (tr t) n s e
  end.

Definition assumed (t : nat) (seen : list (tag * nat)) : Prop :=
  forall t' g p v w, (t' <= t)%nat -> In (g, p) seen -> T p = (v, w) -> holds t' g (Phi v w p).

Lemma assumed_le t t' seen : (t' <= t)%nat -> assumed t seen -> assumed t' seen.
Proof. intros L A t'' g p v w Lt. apply A. lia. Qed.

Lemma tag_eqb_eq a b : tag_eqb a b = true -> a = b.
Proof.
  destruct a, b; cbn; try discriminate; try reflexivity; intro H; apply Z.eqb_eq in H; subst; reflexivity.
Qed.

Lemma in_seen_spec g p seen : in_seen true g p seen = true -> In (g, p) seen.
Proof.
  unfold in_seen. intro H. apply existsb_exists in H. destruct H as ([g' p'] & I & H).
  cbn [fst snd negb orb] in H. apply andb_true_iff in H. destruct H as [H1 H2].
  apply Nat.eqb_eq in H1. apply tag_eqb_eq in H2. subst. exact I.
Qed.

Lemma good_phi v w p : good (Phi v w p).
Proof. intro s. cbn [every]. split; [intros _; split; exact Logic.I|exact Logic.I]. Qed.

Lemma eq_div t b e : holds t TEq e -> holds t (TDiv b) e.
Proof. intros H D i j Hi Hj. rewrite (H D i j Hi Hj). reflexivity. Qed.

Lemma forall_nonneg w l : Forall (in_u w) l -> Forall (fun x => 0 <= x) l.
Proof. apply Forall_impl. intros x [H _]. exact H. Qed.

Lemma round_up_spec m k :
  0 < m < 2 ^ k -> 0 <= k -> (forall j, 0 <= j -> m <> 2 ^ j) ->
  exists a, 0 <= a <= k /\ round_up_pow2 m = 2 ^ a /\ m < 2 ^ a.
Proof.
  intros H Hk N. exists (Z.log2_up m). unfold round_up_pow2.
  replace (m <=? 0) with false by (symmetry; apply Z.leb_gt; lia).
  pose proof (Z.log2_up_nonneg m).
  assert (1 < m). { specialize (N 0 ltac:(lia)). change (2 ^ 0) with 1 in N. lia. }
  pose proof (Z.log2_up_spec m ltac:(lia)) as [S1 S2].
  split; [|split; [reflexivity|]].
  - split; [lia|]. rewrite <- (Z.log2_up_pow2 k Hk). apply Z.log2_up_le_mono. lia.
  - specialize (N (Z.log2_up m) ltac:(lia)). lia.
Qed.

Theorem equal_sound t : forall f e seen,
  well n T true e -> good e -> assumed t seen ->
  (all_equal n P true f e seen = true -> holds t TEq e) /\
  (forall k, 0 <= k -> all_div n P true f (2 ^ k) e seen = true -> holds t (TDiv (2 ^ k)) e).
Proof.
  induction t as [t IHt] using lt_wf_ind.
  induction f as [|f IHf]; intros e seen W G A; [split; intros; discriminate|].
  split.
  - (* all_equal *)
    intros E D i' j' Hi Hj. rewrite all_equal_S in E.
    destruct (Nat.eqb n 1) eqn:N1.
    { apply Nat.eqb_eq in N1. replace i' with j' by lia. reflexivity. }
    destruct e; try discriminate.
    + reflexivity.
    + destruct (splat_of Z.eqb l) as [x|] eqn:S; [|discriminate].
      pose proof (splat_spec _ zeqb_eq l x S) as X.
      cbn [well] in W. destruct W as (_ & _ & L & _). cbn [eval].
      rewrite (X (nth i' l 0)), (X (nth j' l 0)) by (apply nth_In; lia). reflexivity.
    + apply andb_true_iff in E. destruct E as [E U].
      destruct (splat_of celt_eqb l) as [x|] eqn:S; [|discriminate].
      pose proof (splat_spec _ celt_eqb_eq l x S) as X.
      cbn [well] in W. destruct W as (_ & _ & L). cbn [eval].
      rewrite (X (nth i' l EUndef)), (X (nth j' l EUndef)) by (apply nth_In; lia).
      destruct x; try reflexivity. exfalso.
      apply negb_true_iff in U.
      assert (I : In EUndef l).
      { rewrite <- (X (nth i' l EUndef)) by (apply nth_In; lia). apply nth_In; lia. }
      assert (U' : existsb (fun c => match c with EUndef => true | _ => false end) l = true).
      { apply existsb_exists. exists EUndef. split; [exact I|reflexivity]. }
      congruence.
    + (* Bin *)
      cbn [well] in W. destruct W as (Hw & W1 & W2 & L1 & L2).
      destruct (good_bin _ _ _ _ _ G) as [G1 G2].
      assert (D' := D). cbn [defined] in D'. destruct D' as [D1 D2].
      apply orb_true_iff in E. destruct E as [E|E].
      * apply andb_true_iff in E. destruct E as [E1 E2].
        destruct (IHf e1 seen W1 G1 A) as [I1 _]. destruct (IHf e2 seen W2 G2 A) as [I2 _].
        cbn [eval]. rewrite (I1 E1 D1 i' j' Hi Hj), (I2 E2 D2 i' j' Hi Hj). reflexivity.
      * assert (O : (o = AShr \/ o = LShr) /\
                    exists k ks, ints n e2 = Some (k :: ks) /\ forallb (Z.eqb k) ks = true /\
                      0 <= k /\ all_div n P true f (2 ^ k) e1 [] = true).
        { destruct o; try discriminate; (split; [auto|]);
            (destruct (ints n e2) as [[|k ks]|]; try discriminate;
             rewrite !andb_true_iff, Z.leb_le in E;
             exists k, ks; repeat split; tauto). }
        destruct O as (O & k & ks & S & Sk & Hk & E').
        destruct (IHf e1 [] W1 G1 ltac:(intros ? ? ? ? ? _ [])) as [_ I1].
        specialize (I1 k Hk E' D1 i' j' Hi Hj).
        destruct (ints_spec n T (tr t) e2 _ W2 (good_tame e2 G2) S) as (Lk & Vk & Rk).
        assert (Ek : forall j, (j < n)%nat -> eval (tr t) e2 j = k).
        { intros j Hj'. rewrite (Vk j Hj'). rewrite forallb_forall in Sk.
          assert (I : In (nth j (k :: ks) 0) (k :: ks)) by (apply nth_In; lia).
          destruct I as [I|I]; [symmetry; exact I|].
          apply Sk in I. apply Z.eqb_eq in I. auto. }
        assert (Kw : k < w).
        { pose proof (good_tame _ G) as Tm. cbn [tame] in Tm. destruct Tm as [_ Tm].
          specialize (Tm O).
          destruct e2; cbn [ints] in S; try discriminate.
          - destruct n; [lia|]. cbn [repeat] in S. injection S as <- _. exact Hw.
          - cbn [well] in W2. destruct W2 as (_ & _ & Ll & Fl).
            rewrite Forall_forall in Tm, Fl. rewrite <- (Ek i' Hi). cbn [eval].
            rewrite wrapu_id by (apply Fl, nth_In; lia).
            apply Tm, nth_In. lia. }
        assert (R1 : forall j, in_u w (eval (tr t) e1 j)).
        { intro j. rewrite <- L1. eapply eval_range; eassumption. }
        cbn [eval]. rewrite (Ek i' Hi), (Ek j' Hj).
        destruct O as [-> | ->]; unfold bop_val; f_equal; [|exact I1].
        apply ashr_same_quot; auto.
    + (* Cast *)
      cbn [well] in W. destruct W as (Hw & W1 & _).
      assert (G1 : good e). { intro s. specialize (G s). cbn [every] in G. tauto. }
      destruct (IHf e seen W1 G1 A) as [I1 _]. cbn [eval].
      rewrite (I1 E D i' j' Hi Hj). reflexivity.
    + (* Insert *)
      destruct (flatten n true false (Insert e1 e2 i)) as [x|] eqn:F; [|discriminate].
      destruct (good_flatten true true _ x W G F) as (Wx & Lx & Gx & Vx & Dx).
      rewrite (Vx _ _ Hi), (Vx _ _ Hj). eapply scalar_eval, Wx.
    + (* Shuf *)
      destruct (splat_of Nat.eqb m) as [x|] eqn:S; [|discriminate].
      pose proof (splat_spec _ nateqb_eq m x S) as X.
      cbn [well] in W. destruct W as (_ & _ & L & _). cbn [eval].
      rewrite (X (nth i' m 0%nat)), (X (nth j' m 0%nat)) by (apply nth_In; lia). reflexivity.
    + (* Phi *)
      cbn [well] in W. destruct W as (-> & HT & Hw).
      destruct (in_seen true TEq n0 seen) eqn:X; cbn [orb] in E.
      * apply in_seen_spec in X. apply (A t TEq n0 true w); auto.
      * assert (D' := D). cbn [defined] in D'.
        destruct (phi_value t true w n0 HT D') as (t' & j & Lt & I & Dj & V).
        rewrite !V. cbn [eval]. rewrite forallb_forall in E.
        destruct (HP n0 j I) as [Wj Lj]. rewrite HT in Wj, Lj. cbn [fst snd] in Wj, Lj.
        destruct (IHt t' Lt f j ((TEq, n0) :: seen) Wj (HG n0 j I)) as [M _].
        { intros t'' g p v' w' Lt' [Ip|Ip] HT'.
          - injection Ip as <- <-. rewrite HT in HT'. injection HT' as <- <-.
            destruct (IHt t'' ltac:(lia) (S f) (Phi true w n0) seen) as [M _].
            + cbn [well]. auto.
            + apply good_phi.
            + apply (assumed_le t); [lia|exact A].
            + apply M. rewrite all_equal_S. rewrite N1, X. cbn [orb]. apply forallb_forall. exact E.
          - apply (A t'' g p v' w'); auto. lia. }
        apply (M (E j I) Dj); assumption.
  - (* all_div *)
    intros k Hk E. rewrite all_div_S in E.
    apply orb_true_iff in E. destruct E as [E|E].
    { destruct (IHf e seen W G A) as [I1 _]. apply eq_div, I1, E. }
    intros D i' j' Hi Hj.
    assert (Pk : 0 < 2 ^ k) by (apply pow2_pos; lia).
    destruct (ints n e) as [l|] eqn:S.
    + destruct (ints_spec n T (tr t) e l W (good_tame e G) S) as (L & V & R).
      rewrite (V i' Hi), (V j' Hj).
      apply (all_quot_equal_spec (2 ^ k) l Pk (forall_nonneg _ _ R) E); apply nth_In; lia.
    + destruct e; try discriminate.
      * (* Bin *)
        destruct (is_add o) eqn:O; [|discriminate].
        destruct (ints n e2) as [l|] eqn:S2; [|discriminate].
        rewrite !andb_true_iff in E. destruct E as [[E1 E2] E3].
        assert (W' := W). cbn [well] in W'. destruct W' as (Hw & W1 & W2 & L1 & L2).
        destruct (good_bin _ _ _ _ _ G) as [G1 G2].
        assert (D' := D). cbn [defined] in D'. destruct D' as [D1 D2].
        destruct (ints_spec n T (tr t) e2 l W2 (good_tame e2 G2) S2) as (L & V & R).
        rewrite !(good_add t) by assumption.
        destruct (IHf e1 seen W1 G1 A) as [I1 _].
        rewrite (I1 E2 D1 j' i' Hj Hi).
        rewrite (V i' Hi), (V j' Hj).
        assert (Ii : In (nth i' l 0) l) by (apply nth_In; lia).
        assert (Ij : In (nth j' l 0) l) by (apply nth_In; lia).
        pose proof (all_quot_equal_spec (2 ^ k) l Pk (forall_nonneg _ _ R) E1) as Sq.
        (* what the constants are like *)
        assert (OK : add_ok l).
        { destruct e2; cbn [ints] in S2; try discriminate.
          - injection S2 as <-. split.
            + apply Forall_forall. intros x X. apply repeat_spec in X. subst. lia.
            + intros k' _ _. left. intros x y X Y.
              apply repeat_spec in X. apply repeat_spec in Y. congruence.
          - pose proof (good_tame _ G) as Tm. cbn [tame] in Tm. destruct Tm as [Tm _].
            specialize (Tm O). injection S2 as <-.
            cbn [well] in W2. destruct W2 as (_ & _ & _ & F).
            rewrite (map_ext_in _ (fun x => x)), map_id; [exact Tm|].
            intros x X. rewrite Forall_forall in F. rewrite wrapu_id by (apply F, X).
            destruct Tm as [Tm _]. rewrite Forall_forall in Tm. specialize (Tm x X).
            apply wraps_id; [lia|]. unfold in_s. change (64 - 1) with 63.
            assert (2 ^ 31 < 2 ^ 63) by (apply Z.pow_lt_mono_r; lia). lia. }
        destruct OK as [F31 OK]. destruct (OK k Hk Sq) as [Same|NP].
        { rewrite (Same _ _ Ii Ij). reflexivity. }
        destruct (max_mod_spec k l Hk) as [Mx (x & Ix & Ex)].
        { intro Z. subst l. destruct Ii. }
        { exact F31. }
        assert (NPx := NP x Ix). rewrite <- Ex in NPx. specialize (NPx Mx).
        pose proof (Z.mod_pos_bound x (2 ^ k) Pk) as Bx. rewrite <- Ex in Bx.
        assert (Mpos : 0 < max_mod (2 ^ k) l).
        { destruct (Z.eq_dec (max_mod (2 ^ k) l) 0) as [Z|NZ]; [|lia].
          exfalso. rewrite Z in E3. unfold round_up_pow2 in E3. cbn [Z.leb Z.compare] in E3.
          destruct f; [discriminate|]. rewrite is_multiple_S in E3.
          apply andb_true_iff in E3. destruct E3 as [E3 _]. discriminate. }
        destruct (round_up_spec _ k (conj Mpos (proj2 Bx)) Hk NPx) as (a & Ha & Ea & La).
        rewrite Ea in E3.
        assert (M : multiple t (2 ^ a) e1).
        { eapply (is_multiple_sound t f a e1 [] true true); auto; [lia|]. intros ? ? ? ? _ []. }
        assert (Aw : a <= w).
        { (* the largest remainder is below 2^w *)
          destruct (Z_le_gt_dec a w) as [H|H]; [exact H|exfalso].
          assert (x < 2 ^ w).
          { rewrite Forall_forall in R. specialize (R x Ix). rewrite L2 in R. apply R. }
          assert (x mod 2 ^ k <= x).
          { apply Z.mod_le; [|lia]. rewrite Forall_forall in F31. apply F31, Ix. }
          unfold round_up_pow2 in Ea.
          replace (max_mod (2 ^ k) l <=? 0) with false in Ea by (symmetry; apply Z.leb_gt; lia).
          assert (Z.log2_up (max_mod (2 ^ k) l) <= w).
          { rewrite <- (Z.log2_up_pow2 w) by lia. apply Z.log2_up_le_mono. lia. }
          apply Z.pow_inj_r in Ea; [lia|lia|apply Z.log2_up_nonneg|lia]. }
        apply (add_same_quot w a k); auto.
        -- rewrite <- L1. eapply eval_range; eassumption.
        -- pose proof (Mx _ Ii). lia.
        -- pose proof (Mx _ Ij). lia.
      * (* Phi *)
        cbn [well] in W. destruct W as (-> & HT & Hw).
        destruct (in_seen true (TDiv (2 ^ k)) n0 seen) eqn:X; cbn [orb] in E.
        -- apply in_seen_spec in X. apply (A t (TDiv (2 ^ k)) n0 true w); auto.
        -- assert (D' := D). cbn [defined] in D'.
           destruct (phi_value t true w n0 HT D') as (t' & j & Lt & I & Dj & V).
           rewrite !V. cbn [eval]. rewrite forallb_forall in E.
           destruct (HP n0 j I) as [Wj Lj]. rewrite HT in Wj, Lj. cbn [fst snd] in Wj, Lj.
           destruct (IHt t' Lt f j ((TDiv (2 ^ k), n0) :: seen) Wj (HG n0 j I)) as [_ M].
           { intros t'' g p v' w' Lt' [Ip|Ip] HT'.
             - injection Ip as <- <-. rewrite HT in HT'. injection HT' as <- <-.
               destruct (IHt t'' ltac:(lia) (Datatypes.S f) (Phi true w n0) seen) as [_ M].
               + cbn [well]. auto.
               + apply good_phi.
               + apply (assumed_le t); [lia|exact A].
               + apply (M k Hk). rewrite all_div_S. cbn [ints]. rewrite X. cbn [orb].
                 apply orb_true_iff. right. apply forallb_forall. exact E.
             - apply (A t'' g p v' w'); auto. lia. }
           apply (M k Hk (E j I) Dj); assumption.
Qed.

End Sound.
