From Coq Require Import ZArith List Bool Lia.
From Verif Require Import HeapModel HeapSpec.
Import ListNotations.
Local Open Scope Z_scope.

Lemma apart_sym a n a' n' : apart a n a' n' -> apart a' n' a n.
Proof. unfold apart. intuition. Qed.

Definition aligned (al : Z) (b : block) : Prop := 0 < b_addr b /\ b_addr b mod al = 0 /\ b_align b = al.

Lemma call_alloc_ok c A h s h' r : good A -> wf h -> call_alloc c A h s = (h', r) ->
  (r = None /\ h' = h \/ r = Some 0 /\ h' = h \/
   exists a, r = Some a /\ a <> 0 /\ h' = {| b_addr := a; b_size := received c s; b_align := alignment c |} :: h /\
     aligned (alignment c) {| b_addr := a; b_size := received c s; b_align := alignment c |} /\ wf h').
Proof.
  intros G [W1 W2]. unfold call_alloc. destruct (A h (alignment c) (received c s)) as [a|] eqn:E; intros [= <- <-]; [|auto].
  destruct (Z.eqb_spec a 0) as [->|N]; [auto|]. right. right. exists a. destruct (G _ _ _ _ E N) as (G1 & G2 & G3).
  split; [reflexivity|]. split; [exact N|]. split; [reflexivity|]. split; [unfold aligned; cbn; auto|].
  split; constructor; cbn; auto. apply Forall_forall. intros b Hb. now apply G3.
Qed.

Lemma new_rt_ok c A : good A -> forall mask sizes h h' ps, wf h -> length sizes = length mask ->
  new_varying_rt c A h mask sizes = (h', ps) ->
  exists bs, lane_blocks (alignment c) mask (map (received c) sizes) ps bs /\ h' = rev bs ++ h /\ wf h' /\
    Forall (aligned (alignment c)) bs.
Proof.
  intros G. induction mask as [|m mask IH]; intros [|s sizes] h h' ps W L; try discriminate.
  - intros [= <- <-]. exists []. repeat split; try constructor; apply W.
  - injection L as L. cbn [new_varying_rt map].
    assert (X : exists h1 p, (if m then match call_alloc c A h s with (h0, Some a) => (h0, a) | (h0, None) => (h0, 0) end else (h, 0)) = (h1, p) /\
      ((p = 0 /\ h1 = h) \/ (m = true /\ p <> 0 /\ h1 = {| b_addr := p; b_size := received c s; b_align := alignment c |} :: h /\
        aligned (alignment c) {| b_addr := p; b_size := received c s; b_align := alignment c |} /\ wf h1))).
    { destruct m; [|exists h, 0; auto]. destruct (call_alloc c A h s) as [h1 r] eqn:E. apply call_alloc_ok in E; [|assumption..].
      destruct E as [[-> ->]|[[-> ->]|(a & -> & E)]]; [exists h, 0; auto..|]. exists h1, a. split; [reflexivity|]. right. split; [reflexivity|exact E]. }
    destruct X as (h1 & p & -> & X). destruct (new_varying_rt c A h1 mask sizes) as [h2 ps2] eqn:R. intros [= <- <-].
    destruct X as [[-> ->]|(-> & P & H1 & Al & W1)].
    + destruct (IH _ _ _ _ W L R) as (bs & B1 & B2 & B3 & B4). exists bs. split; [destruct m; now constructor|auto].
    + destruct (IH _ _ _ _ W1 L R) as (bs & B1 & B2 & B3 & B4).
      exists ({| b_addr := p; b_size := received c s; b_align := alignment c |} :: bs).
      split; [now constructor|]. split; [cbn; rewrite <- app_assoc; cbn; congruence|]. split; [exact B3|]. now constructor.
Qed.

Lemma size_of_pos c t : 0 < t_size t -> (0 < width c)%nat -> 1 <= size_of c t.
Proof. unfold size_of. destruct (resolve t); nia. Qed.

Lemma alloc_size_ok c t n : 0 < t_size t -> (0 < width c)%nat -> 0 <= n -> fits c (n * size_of c t) ->
  alloc_size c t n = n * size_of c t.
Proof.
  intros T Wd N F. pose proof (size_of_pos c t T Wd) as S. unfold alloc_size, bits, do32.
  assert (B : n * size_of c t < 2 ^ (if is32 c || force32 c then 32 else 64)).
  { destruct F as [F|(-> & -> & _ & F)]; [destruct (is32 c || force32 c)|]; cbn in *; lia. }
  rewrite (Z.mod_small n) by nia. apply Z.mod_small. nia.
Qed.
Lemma received_ok c n : fits c n -> received c n = n.
Proof.
  intros F. unfold received. destruct F as [F|(-> & _ & -> & F)]; [destruct (is32 c || generic c)|]; cbn in *; apply Z.mod_small; lia.
Qed.
Lemma sext_ok c n : fits c n -> sext c n = n.
Proof.
  intros F. unfold sext, do32. destruct (is32 c || force32 c) eqn:D; [|reflexivity].
  destruct F as [F|(E1 & E2 & _)]; [|rewrite E1, E2 in D; discriminate].
  destruct (Z.ltb_spec n (2 ^ 31)); [|lia]. apply Z.mod_small. cbn in *. lia.
Qed.

(** Deallocation. *)
Lemma wf_in_unique h b b' : wf h -> In b h -> In b' h -> b_addr b = b_addr b' -> b = b'.
Proof.
  intros [W _] H H' E. destruct (ForallOrdPairs_In W b b' H H') as [X|[[_ X]|[_ X]]]; congruence.
Qed.
Lemma FOP_filter {T} (R : T -> T -> Prop) f l : ForallOrdPairs R l -> ForallOrdPairs R (filter f l).
Proof.
  induction 1 as [|x l H1 H2 IH]; cbn; [constructor|]. destruct (f x); [|exact IH]. constructor; [|exact IH].
  rewrite Forall_forall in *. intros y Hy. apply filter_In in Hy. now apply H1.
Qed.
Lemma wf_filter f h : wf h -> wf (filter f h).
Proof.
  intros [W1 W2]. split; [now apply FOP_filter|]. rewrite Forall_forall in *. intros b Hb. apply filter_In in Hb. now apply W2.
Qed.

Definition live (h : heap) (p : Z) : Prop := exists b, In b h /\ b_addr b = p.
Definition without (ps : list Z) (h : heap) : heap := filter (fun b => negb (existsb (Z.eqb (b_addr b)) ps)) h.
Definition nonnull (ps : list Z) : list Z := filter (fun p => negb (p =? 0)) ps.

Lemma without_nil h : without [] h = h.
Proof. unfold without. cbn. induction h as [|b h IH]; cbn; congruence. Qed.
Lemma live_without h ps p : live (without ps h) p <-> live h p /\ ~ In p ps.
Proof.
  unfold live, without. split.
  - intros (b & H & <-). apply filter_In in H as [H1 H2]. split; [eauto|]. intros X. apply negb_true_iff in H2.
    rewrite (proj2 (existsb_exists _ _)) in H2; [discriminate|]. exists (b_addr b). split; [easy|apply Z.eqb_refl].
  - intros [(b & H & <-) N]. exists b. split; [|reflexivity]. apply filter_In. split; [exact H|]. apply negb_true_iff, not_true_is_false.
    intros X. apply existsb_exists in X as (q & Q1 & Q2). apply Z.eqb_eq in Q2. congruence.
Qed.
Lemma filter_filter {T} (f g : T -> bool) l : filter f (filter g l) = filter (fun x => g x && f x) l.
Proof. induction l as [|x l IH]; [reflexivity|]. cbn. destruct (g x); cbn; [destruct (f x)|]; cbn; congruence. Qed.
Lemma without_cons p ps h : without ps (without [p] h) = without (p :: ps) h.
Proof.
  unfold without. rewrite filter_filter. apply filter_ext. intros b. cbn. rewrite orb_false_r. now rewrite negb_orb.
Qed.
Lemma without_zero ps h : wf h -> without (0 :: ps) h = without ps h.
Proof.
  intros [_ W]. unfold without. apply filter_ext_in. intros b Hb. rewrite Forall_forall in W. cbn.
  destruct (Z.eqb_spec (b_addr b) 0) as [E|]; [|reflexivity]. destruct (W b Hb E).
Qed.

Lemma free_spec h p h' : free h p = Some h' <->
  (p = 0 /\ h' = h) \/ (p <> 0 /\ live h p /\ h' = without [p] h).
Proof.
  unfold free, without, live. destruct (Z.eqb_spec p 0) as [->|N].
  - split; [intros [= <-]; auto|intros [[_ ->]|[X _]]; congruence].
  - destruct (existsb _ h) eqn:E.
    + apply existsb_exists in E as (b & B1 & B2). apply Z.eqb_eq in B2. split.
      * intros [= <-]. right. split; [easy|]. split; [eauto|]. apply filter_ext. intros x. cbn. now rewrite orb_false_r.
      * intros [[X _]|(_ & _ & ->)]; [congruence|]. f_equal. apply filter_ext. intros x. cbn. now rewrite orb_false_r.
    + split; [discriminate|]. intros [[X _]|(_ & (b & B1 & B2) & _)]; [congruence|].
      rewrite (proj2 (existsb_exists _ _)) in E; [discriminate|]. exists b. split; [easy|now apply Z.eqb_eq].
Qed.

Lemma delete_spec : forall mask ptrs h h', wf h ->
  (delete_varying_rt h mask ptrs = Some h' <->
   NoDup (nonnull (selected mask ptrs)) /\ (forall p, In p (nonnull (selected mask ptrs)) -> live h p) /\
   h' = without (selected mask ptrs) h).
Proof.
  induction mask as [|m mask IH]; intros ptrs h h' W.
  { cbn. rewrite without_nil. split; [intros [= <-]; repeat split; [constructor|easy]|now intros (_ & _ & ->)]. }
  destruct ptrs as [|p ptrs].
  { cbn. rewrite without_nil. split; [intros [= <-]; repeat split; [constructor|easy]|now intros (_ & _ & ->)]. }
  cbn [delete_varying_rt selected]. destruct m; cbn [app]; [|now apply IH].
  destruct (Z.eq_dec p 0) as [->|N].
  - unfold free. cbn [Z.eqb]. cbn [nonnull filter Z.eqb negb]. rewrite without_zero by assumption. now apply IH.
  - assert (NN : nonnull (p :: selected mask ptrs) = p :: nonnull (selected mask ptrs)).
    { cbn. destruct (Z.eqb_spec p 0); [contradiction|reflexivity]. }
    rewrite NN. destruct (free h p) as [h1|] eqn:F.
    + apply free_spec in F as [[X _]|(_ & Lp & ->)]; [contradiction|]. rewrite IH by now apply wf_filter.
      rewrite without_cons. split.
      * intros (H1 & H2 & ->). split; [|split; [|reflexivity]].
        -- constructor; [|exact H1]. intros X. apply H2, live_without in X as [_ X]. apply X. now left.
        -- intros q [<-|Hq]; [exact Lp|]. apply H2, live_without in Hq. apply Hq.
      * intros (H1 & H2 & ->). inversion H1 as [|x l N1 N2]; subst. split; [easy|]. split; [|reflexivity].
        intros q Hq. apply live_without. split; [apply H2; now right|]. intros [<-|[]]. contradiction.
    + split; [discriminate|]. intros (_ & H2 & _). exfalso.
      assert (X : free h p = Some (without [p] h)) by (apply free_spec; right; repeat split; [exact N|apply H2; now left]).
      congruence.
Qed.

(** The pointers of a gang that has just allocated. *)
Lemma lane_blocks_addrs al mask sizes ps bs : lane_blocks al mask sizes ps bs ->
  map b_addr bs = nonnull ps /\ length ps = length mask.
Proof.
  induction 1 as [|mask sizes ps bs s _ IH|mask sizes ps bs s _ IH|mask sizes ps bs s p N _ IH]; [auto|..]; cbn; destruct IH as [-> ->]; auto.
  destruct (Z.eqb_spec p 0); [contradiction|]. auto.
Qed.
Lemma lane_blocks_all al mask sizes ps bs : lane_blocks al mask sizes ps bs -> nonnull (selected mask ps) = nonnull ps.
Proof.
  induction 1 as [|mask sizes ps bs s _ IH|mask sizes ps bs s _ IH|mask sizes ps bs s p N _ IH]; [reflexivity|..]; cbn; auto.
  destruct (Z.eqb_spec p 0); [contradiction|]. cbn. now f_equal.
Qed.
Lemma NoDup_selected : forall mask ps, NoDup (nonnull ps) ->
  NoDup (nonnull (selected mask ps)) /\ (forall p, In p (nonnull (selected mask ps)) -> In p (nonnull ps)).
Proof.
  induction mask as [|m mask IH]; intros [|p ps] N; cbn; try (split; [constructor|easy]).
  cbn in N. destruct m, (p =? 0) eqn:E; cbn in *; rewrite ?E; cbn.
  - now apply IH.
  - inversion N as [|x l N1 N2]; subst. destruct (IH ps N2) as [I1 I2]. split.
    + constructor; [|exact I1]. intros X. now apply N1, I2.
    + intros q [->|Hq]; [now left|right; auto].
  - now apply IH.
  - inversion N as [|x l N1 N2]; subst. destruct (IH ps N2) as [I1 I2]. split; [exact I1|]. intros q Hq. right. auto.
Qed.
Lemma wf_nodup h : wf h -> NoDup (map b_addr h).
Proof.
  intros [W _]. induction W as [|b h H _ IH]; cbn; [constructor|]. constructor; [|exact IH]. intros X.
  apply in_map_iff in X as (b' & E & I). rewrite Forall_forall in H. destruct (H b' I) as [_ X]. congruence.
Qed.
Lemma nonnull_in p ps : In p (nonnull ps) <-> In p ps /\ p <> 0.
Proof. unfold nonnull. rewrite filter_In, negb_true_iff, Z.eqb_neq. reflexivity. Qed.

Lemma own_live al mask sizes ps bs h : lane_blocks al mask sizes ps bs -> wf (rev bs ++ h) ->
  NoDup (nonnull ps) /\ forall p, In p (nonnull ps) -> live (rev bs ++ h) p.
Proof.
  intros L W. destruct (lane_blocks_addrs _ _ _ _ _ L) as [E _]. rewrite <- E. apply wf_nodup in W. rewrite map_app, map_rev in W. split.
  - clear - W. apply NoDup_rev in W. rewrite rev_app_distr, rev_involutive in W.
    induction (rev (map b_addr h)) as [|x l IH]; [exact W|]. inversion W; auto.
  - intros p Hp. apply in_map_iff in Hp as (b & <- & Hb). exists b. split; [|reflexivity]. apply in_or_app. left. now apply -> in_rev.
Qed.

Lemma new_rt_succeeds c A : (forall h al n, exists a, A h al n = Some a /\ a <> 0) -> forall mask sizes h h' ps,
  length sizes = length mask -> new_varying_rt c A h mask sizes = (h', ps) -> Forall (fun p => p <> 0) (selected mask ps).
Proof.
  intros S. induction mask as [|m mask IH]; intros [|s sizes] h h' ps L; try discriminate; cbn [new_varying_rt].
  - intros [= <- <-]. constructor.
  - injection L as L. destruct m.
    + unfold call_alloc. destruct (S h (alignment c) (received c s)) as (a & -> & N).
      destruct (new_varying_rt _ _ _ mask sizes) as [h2 ps2] eqn:R. intros [= <- <-]. cbn. constructor; [exact N|]. eapply IH; eauto.
    + destruct (new_varying_rt _ _ _ mask sizes) as [h2 ps2] eqn:R. intros [= <- <-]. cbn. eapply IH; eauto.
Qed.

(** An allocator that always has memory: it takes the next free address. *)
Definition bump : allocator := fun h al n =>
  if al <=? 0 then None
  else Some (al * (1 + Z.max 0 (fold_right (fun b m => Z.max m (Z.max (b_addr b) (b_addr b + b_size b))) 0 h) / al + 1)).
Lemma bump_good : good bump.
Proof.
  intros h al n a. unfold bump. destruct (Z.leb_spec al 0) as [|P]; [discriminate|]. intros X _. apply (f_equal (fun o => match o with Some x => x | None => 0 end)) in X. cbv beta iota in X. subst a.
  set (m := fold_right _ 0 h). set (M := Z.max 0 m). assert (0 <= M) by lia.
  pose proof (Z.div_pos M al ltac:(lia) P). pose proof (Z.mul_succ_div_gt M al P).
  assert (E : al * (1 + M / al + 1) = al * Z.succ (M / al) + al) by nia.
  split; [apply Z.mul_pos_pos; lia|]. split; [rewrite Z.mul_comm; apply Z.mod_mul; lia|]. rewrite E.
  intros b Hb. assert (B : Z.max (b_addr b) (b_addr b + b_size b) <= m).
  { unfold m. clear - Hb. induction h as [|x h IH]; [destruct Hb|]. cbn. destruct Hb as [->|Hb]; [lia|]. apply IH in Hb. lia. }
  unfold apart. lia.
Qed.
