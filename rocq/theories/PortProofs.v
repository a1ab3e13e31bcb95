(** Proofs about programs on the two devices of the ISPC Run Time. *)
From Coq Require Import ZArith List Bool Arith Lia.
From Verif Require Import PortModel PortSpec.
Import ListNotations.

Lemma upd_same m v b : upd m v b v = b.
Proof. unfold upd. now rewrite Nat.eqb_refl. Qed.
Lemma upd_other m v b w : w <> v -> upd m v b w = m w.
Proof. intros H. unfold upd. now rewrite (proj2 (Nat.eqb_neq w v) H). Qed.
Lemma setb_same f v b : setb f v b v = b.
Proof. unfold setb. now rewrite Nat.eqb_refl. Qed.
Lemma setb_other f v b w : w <> v -> setb f v b w = f w.
Proof. intros H. unfold setb. now rewrite (proj2 (Nat.eqb_neq w v) H). Qed.
Lemma memn_in i l : memn i l = true <-> In i l.
Proof. unfold memn. rewrite existsb_exists. split; [intros (x & H & E); apply Nat.eqb_eq in E; now subst|intros H; exists i; now rewrite Nat.eqb_refl]. Qed.
Lemma memn_out i l : memn i l = false <-> ~ In i l.
Proof. rewrite <- memn_in. destruct (memn i l); split; congruence. Qed.
Lemma set_list_same ls l cs : set_list ls l cs l = cs.
Proof. unfold set_list. now rewrite Nat.eqb_refl. Qed.
Lemma set_list_other ls l cs k : k <> l -> set_list ls l cs k = ls k.
Proof. intros H. unfold set_list. now rewrite (proj2 (Nat.eqb_neq k l) H). Qed.
Lemma copied_length n src dst : n <= length src -> n <= length dst -> length (copied n src dst) = length dst.
Proof. intros. unfold copied. rewrite app_length, firstn_length, skipn_length. lia. Qed.

Section Proofs.
Variable views : nat -> kind.
Variable size : nat -> nat.
Variable kernels : nat -> kernel.
Hypothesis K : forall k, kernel_ok size (kernels k).
Notation gdo := (gpu_do views kernels).
Notation gall := (gpu_all views kernels).
Notation sized := (sized size).

Lemma launched_in k m v : In v (k_writes (kernels k)) -> launched kernels k m v = k_fun (kernels k) m v.
Proof. intros H. unfold launched. fold (memn v (k_writes (kernels k))). now rewrite (proj2 (memn_in _ _) H). Qed.
Lemma launched_out k m v : ~ In v (k_writes (kernels k)) -> launched kernels k m v = m v.
Proof. intros H. unfold launched. fold (memn v (k_writes (kernels k))). now rewrite (proj2 (memn_out _ _) H). Qed.

(** Commands do not change views they do not use, and do not depend on them. *)
Lemma do_frame c h d v : ~ In v (uses kernels c) -> fst (gdo c (h, d)) v = h v /\ snd (gdo c (h, d)) v = d v.
Proof.
  destruct c; cbn; intros H.
  - split; [reflexivity|]. rewrite upd_other; auto.
  - destruct (is_shared (views v0)); cbn; [auto|]. split; [|reflexivity]. rewrite upd_other; auto.
  - split; [reflexivity|]. rewrite upd_other; auto.
  - split; [reflexivity|]. apply launched_out. rewrite in_app_iff in H. auto.
  - auto.
Qed.
Lemma all_frame cs v : forall h d, (forall c, In c cs -> ~ In v (uses kernels c)) -> fst (gall cs (h, d)) v = h v /\ snd (gall cs (h, d)) v = d v.
Proof.
  unfold gpu_all. induction cs as [|c cs IH]; intros h d H; [auto|]. cbn [fold_left]. destruct (gdo c (h, d)) as [h1 d1] eqn:E.
  destruct (do_frame c h d v (H c (or_introl eq_refl))) as [A B]. rewrite E in A, B. cbn in A, B.
  destruct (IH h1 d1 (fun c' Hc => H c' (or_intror Hc))) as [A' B']. split; congruence.
Qed.
Definition agree (v : nat) (a b : memory * memory) : Prop := forall w, w <> v -> fst a w = fst b w /\ snd a w = snd b w.
Lemma do_agree c v a b : ~ In v (uses kernels c) -> agree v a b -> agree v (gdo c a) (gdo c b).
Proof.
  destruct a as [h d], b as [h' d']. intros N A w W. destruct (A w W) as [Hh Hd]. cbn in Hh, Hd. destruct c as [u|u|x y n|k|]; cbn in N |- *.
  - split; [exact Hh|]. destruct (Nat.eq_dec w u) as [->|D]; [rewrite !upd_same|rewrite !upd_other by auto; auto].
    unfold at_host. destruct (A u) as [X Y]; [intuition|]. destruct (is_shared (views u)); auto.
  - destruct (is_shared (views u)); cbn; [auto|]. split; [|exact Hd]. destruct (Nat.eq_dec w u) as [->|D]; [rewrite !upd_same|rewrite !upd_other by auto]; auto.
  - split; [exact Hh|]. destruct (Nat.eq_dec w x) as [->|D]; [rewrite !upd_same|rewrite !upd_other by auto; auto].
    destruct (A y) as [_ Y]; [intuition|]. cbn in Y. now rewrite Y, Hd.
  - split; [exact Hh|]. destruct (in_dec Nat.eq_dec w (k_writes (kernels k))) as [I|I]; [rewrite !launched_in by auto|rewrite !launched_out by auto; auto].
    apply (proj1 (K k)); auto. intros u Hu. apply A. intros ->. apply N. apply in_app_iff. auto.
  - auto.
Qed.
Lemma all_agree cs v : forall a b, (forall c, In c cs -> ~ In v (uses kernels c)) -> agree v a b -> agree v (gall cs a) (gall cs b).
Proof.
  unfold gpu_all. induction cs as [|c cs IH]; intros a b H A; [exact A|]. cbn [fold_left]. apply IH; [intros; apply H; now right|].
  apply do_agree; [apply H; now left|exact A].
Qed.
Lemma all_app cs1 cs2 a : gall (cs1 ++ cs2) a = gall cs2 (gall cs1 a).
Proof. unfold gpu_all. apply fold_left_app. Qed.

Lemma upd_sized m v b : sized m -> length b = size v -> sized (upd m v b).
Proof. intros H L w. unfold upd. destruct (w =? v) eqn:E; [apply Nat.eqb_eq in E; now subst|apply H]. Qed.
Lemma launched_sized k m : sized m -> sized (launched kernels k m).
Proof.
  intros H w. destruct (in_dec Nat.eq_dec w (k_writes (kernels k))) as [I|I]; [rewrite launched_in by auto; apply (proj2 (K k)); auto|rewrite launched_out by auto; apply H].
Qed.
Lemma do_sized c a : too_big size c = false -> sized (fst a) -> sized (snd a) -> sized (fst (gdo c a)) /\ sized (snd (gdo c a)).
Proof.
  destruct a as [h d]. cbn. intros T H D. destruct c as [u|u|x y n|k|]; cbn.
  - split; [exact H|]. apply upd_sized; auto. unfold at_host. destruct (is_shared (views u)); auto.
  - destruct (is_shared (views u)); cbn; [auto|]. split; [apply upd_sized|]; auto.
  - split; [exact H|]. apply upd_sized; auto. cbn in T. apply orb_false_iff in T. destruct T as [T1 T2]. apply Nat.ltb_ge in T1, T2.
    rewrite copied_length; [apply D|rewrite D; lia|rewrite D; lia].
  - split; [exact H|]. now apply launched_sized.
  - auto.
Qed.
Lemma all_sized cs : forall a, (forall c, In c cs -> too_big size c = false) -> sized (fst a) -> sized (snd a) -> sized (fst (gall cs a)) /\ sized (snd (gall cs a)).
Proof.
  unfold gpu_all. induction cs as [|c cs IH]; intros a T H D; [auto|]. cbn [fold_left].
  destruct (do_sized c a (T c (or_introl eq_refl)) H D). apply IH; auto. intros; apply T; now right.
Qed.

(** What the device has still to do once everything is submitted. *)
Definition opened (s : plan) (g : gpu) : list (nat * cmd) := match p_open s with Some (l, _) => g_lists g l | None => [] end.
Definition pending (s : plan) (g : gpu) : list cmd := map snd (g_queue g) ++ map snd (opened s g).
Definition open_views (s : plan) : list nat := match p_open s with Some (_, vs) => vs | None => [] end.
Definition final (s : plan) (g : gpu) : memory * memory := gall (pending s g) (g_host g, g_dev g).

Record inv (s : plan) (c : cpu) (g : gpu) : Prop := Inv {
  i_cmem : sized (c_mem c); i_host : sized (g_host g); i_dev : sized (g_dev g);
  i_big : forall x, In x (pending s g) -> too_big size x = false;
  i_ondev : forall v, p_dev s v = true -> snd (final s g) v = c_mem c v;
  i_onhost : forall v, on_host views s v = true -> at_host views (fst (final s g)) (snd (final s g)) v = c_mem c v;
  i_queue : forall x, In x (map snd (g_queue g)) -> forall v, In v (uses kernels x) -> In v (p_busy s);
  i_opened : forall x, In x (map snd (opened s g)) -> forall v, In v (uses kernels x) -> In v (open_views s);
  i_tags : forall l, In l (map fst (g_queue g)) -> In l (p_flying s);
  i_task : forall vs, p_open s = Some (0, vs) -> p_flying s = [];
  i_closed : g_closed g = p_closed s;
  i_zero : ~ In 0 (p_closed s);
  i_open : forall l vs, p_open s = Some (l, vs) -> ~ In l (p_closed s);
  i_lists : forall l, ~ In l (p_closed s) -> (forall vs, p_open s <> Some (l, vs)) -> g_lists g l = [];
  i_seen : g_seen g = c_seen c;
  i_nfut : length (g_futures g) = p_count s /\ length (c_futures c) = p_count s;
  i_nums : forall i x, In (i, x) (g_lists g 0) -> i < p_count s;
  i_valid : forall i, In i (p_valid s) -> nth i (g_futures g) false = true /\ nth i (c_futures c) false = true;
  i_started : forall i, In i (p_started s) -> nth i (c_futures c) false = true /\ exists k, In (i, Launch k) (g_lists g 0) }.

Lemma used_spec s v : ~ In v (used s) -> ~ In v (open_views s) /\ ~ In v (p_busy s).
Proof. unfold used, open_views. rewrite in_app_iff. intuition. Qed.
Lemma unused s c g v : inv s c g -> ~ In v (used s) -> forall x, In x (pending s g) -> ~ In v (uses kernels x).
Proof.
  intros H N x Hx Hv. apply used_spec in N. destruct N as [N1 N2]. apply in_app_iff in Hx. destruct Hx as [Hx|Hx].
  - apply N2. eapply i_queue; eauto.
  - apply N1. eapply i_opened; eauto.
Qed.
Lemma final_unused s c g v : inv s c g -> ~ In v (used s) -> fst (final s g) v = g_host g v /\ snd (final s g) v = g_dev g v.
Proof. intros H N. unfold final. apply all_frame. eapply unused; eauto. Qed.

(** The device does a command. *)
Lemma inv_step s c g g' : inv s c g -> gpu_step views kernels g = Some g' -> inv s c g'.
Proof.
  intros H E. unfold gpu_step in E. destruct (g_queue g) as [|[t x] q] eqn:Q; [discriminate|].
  destruct (gdo x (g_host g, g_dev g)) as [h d] eqn:D. injection E as <-.
  set (g' := Gpu h d (g_lists g) (g_closed g) q (g_futures g) (g_seen g)).
  assert (O : opened s g' = opened s g) by reflexivity.
  assert (P : pending s g = x :: pending s g') by (unfold pending; rewrite O, Q; reflexivity).
  assert (F : final s g' = final s g). { unfold final at 2. rewrite P. unfold gpu_all. cbn [fold_left]. rewrite D. reflexivity. }
  assert (S1 : sized h /\ sized d).
  { pose proof (do_sized x (g_host g, g_dev g)) as Z. rewrite D in Z. apply Z; cbn.
    - eapply i_big; eauto. rewrite P. now left.
    - apply (i_host _ _ _ H).
    - apply (i_dev _ _ _ H). }
  destruct H. constructor; cbn [g_host g_dev g_lists g_closed g_queue g_futures g_seen g']; try tauto; auto.
  - intros y Hy. apply i_big0. rewrite P. now right.
  - intros v Hv. rewrite F. auto.
  - intros v Hv. rewrite F. auto.
  - intros y Hy. apply i_queue0. rewrite Q. now right.
  - intros l Hl. apply i_tags0. rewrite Q. now right.
Qed.

(** Changing a view that nothing pending uses. *)
Lemma final_change s c g v h d : inv s c g -> ~ In v (used s) -> agree v (h, d) (g_host g, g_dev g) ->
  let f := gall (pending s g) (h, d) in agree v f (final s g) /\ fst f v = h v /\ snd f v = d v.
Proof.
  intros H N A f. split.
  - apply all_agree; [|exact A]. eapply unused; eauto.
  - apply all_frame. eapply unused; eauto.
Qed.

Lemma on_host_shared s v : is_shared (views v) = true -> on_host views s v = p_dev s v.
Proof. unfold on_host. now intros ->. Qed.

(** Commands on both devices. *)
Lemma command_sim s x hp dp m h d : command views size kernels s x hp dp -> sized m -> sized h -> sized d ->
  (forall v, p_dev s v = true -> d v = m v) -> (forall v, on_host views s v = true -> at_host views h d v = m v) ->
  let s' := Plan hp dp None [] [] [] 0 [] [] in let f := gdo x (h, d) in let m' := cpu_do kernels x m in
  too_big size x = false /\ no_host views x = false /\ sized m' /\
  (forall v, dp v = true -> snd f v = m' v) /\ (forall v, on_host views s' v = true -> at_host views (fst f) (snd f) v = m' v).
Proof.
  intros C Sm Sh Sd D H. destruct C as [s v A B|s v A B|s x y n N L1 L2 B W|s k R|s]; cbn [cpu_do too_big no_host]; unfold on_host in *; cbn [p_dev p_host].
  - rewrite A. repeat split; auto; cbn [gpu_do fst snd].
    + intros w Hw. destruct (Nat.eq_dec w v) as [->|E].
      * rewrite upd_same. apply H, B.
      * rewrite upd_other by auto. rewrite setb_other in Hw by auto. auto.
    + intros w Hw. unfold at_host in *. specialize (H w). destruct (is_shared (views w)) eqn:Sh1.
      * destruct (Nat.eq_dec w v) as [->|E]; [rewrite upd_same, Sh1; rewrite Sh1 in B; auto|rewrite upd_other by auto; rewrite setb_other in Hw by auto; auto].
      * auto.
  - rewrite A. repeat split; auto.
    + intros w Hw. cbn [gpu_do]. destruct (is_shared (views v)); cbn [snd]; auto.
    + intros w Hw. specialize (H w). unfold at_host in *. cbn [gpu_do]. destruct (is_shared (views w)) eqn:Sh1.
      * destruct (is_shared (views v)); cbn [snd]; auto.
      * destruct (is_shared (views v)) eqn:Sh2; cbn [fst].
        { assert (w <> v) by congruence. rewrite setb_other in Hw by auto. auto. }
        { destruct (Nat.eq_dec w v) as [->|E]; [rewrite upd_same; auto|rewrite upd_other by auto; rewrite setb_other in Hw by auto; auto]. }
  - assert (Dx : copied n (d y) (d x) = copied n (m y) (m x)).
    { unfold copied. rewrite (D y B). f_equal. destruct W as [W|W]; [now rewrite (D x W)|]. subst n.
      rewrite !skipn_all2; auto; rewrite ?Sm, ?Sd; lia. }
    assert (T : (size x <? n) || (size y <? n) = false) by (apply orb_false_iff; split; apply Nat.ltb_ge; lia).
    repeat split; auto.
    + apply upd_sized; auto. rewrite copied_length; [apply Sm|rewrite Sm; lia|rewrite Sm; lia].
    + intros w Hw. cbn [gpu_do snd]. destruct (Nat.eq_dec w x) as [->|E]; [now rewrite !upd_same|rewrite !upd_other by auto; rewrite setb_other in Hw by auto; auto].
    + intros w Hw. specialize (H w). unfold at_host in *. cbn [gpu_do fst snd]. destruct (Nat.eq_dec w x) as [->|E].
      * rewrite !upd_same. destruct (is_shared (views x)); auto. rewrite setb_same in Hw. discriminate.
      * rewrite !upd_other by auto. rewrite !setb_other in Hw by auto. destruct (is_shared (views w)); auto.
  - assert (L : forall w, In w (k_writes (kernels k)) -> launched kernels k d w = launched kernels k m w).
    { intros w Hw. rewrite !launched_in by auto. apply (proj1 (K k)); auto. }
    repeat split; auto.
    + now apply launched_sized.
    + intros w Hw. cbn [gpu_do snd]. destruct (in_dec Nat.eq_dec w (k_writes (kernels k))) as [I|I]; [auto|].
      rewrite !launched_out by auto. unfold setall in Hw. rewrite (proj2 (memn_out _ _) I) in Hw. auto.
    + intros w Hw. specialize (H w). unfold at_host in *. cbn [gpu_do fst snd]. unfold setall in Hw.
      destruct (in_dec Nat.eq_dec w (k_writes (kernels k))) as [I|I].
      * rewrite (proj2 (memn_in _ _) I) in Hw. destruct (is_shared (views w)); [auto|discriminate].
      * rewrite (proj2 (memn_out _ _) I) in Hw. rewrite !launched_out by auto. destruct (is_shared (views w)); auto.
  - repeat split; auto.
Qed.

Lemma set_nth_length (fs : list bool) i : i < length fs -> length (firstn i fs ++ true :: skipn (S i) fs) = length fs.
Proof. intros H. rewrite app_length, firstn_length. cbn [length]. rewrite skipn_length. lia. Qed.
Lemma set_nth_true (fs : list bool) i : i < length fs -> nth i (firstn i fs ++ true :: skipn (S i) fs) false = true.
Proof. intros H. rewrite app_nth2; rewrite firstn_length; [|lia]. replace (i - min i (length fs)) with 0 by lia. reflexivity. Qed.
Lemma set_nth_keeps (fs : list bool) i j : i < length fs -> nth j fs false = true -> nth j (firstn i fs ++ true :: skipn (S i) fs) false = true.
Proof.
  intros H J. destruct (lt_eq_lt_dec j i) as [[L|E]|L].
  - rewrite app_nth1 by (rewrite firstn_length; lia). rewrite <- J. rewrite <- (firstn_skipn i fs) at 2. rewrite app_nth1 by (rewrite firstn_length; lia). reflexivity.
  - subst j. now apply set_nth_true.
  - rewrite app_nth2; rewrite firstn_length; [|lia]. replace (j - min i (length fs)) with (S (j - S i)) by lia. cbn [nth].
    rewrite <- J. rewrite <- (firstn_skipn (S i) fs) at 2. rewrite app_nth2; rewrite firstn_length; [|lia]. f_equal. lia.
Qed.
Lemma make_valid_ok cs : forall fs, (forall i x, In (i, x) cs -> i < length fs) ->
  length (make_valid cs fs) = length fs /\ (forall j, nth j fs false = true -> nth j (make_valid cs fs) false = true) /\
  (forall i k, In (i, Launch k) cs -> nth i (make_valid cs fs) false = true).
Proof.
  induction cs as [|[i x] cs IH]; intros fs H; [cbn; intuition|]. cbn [make_valid].
  set (fs1 := if is_launch x then firstn i fs ++ true :: skipn (S i) fs else fs).
  assert (Hi : i < length fs) by (eapply H; now left).
  assert (L1 : length fs1 = length fs) by (unfold fs1; destruct (is_launch x); [now apply set_nth_length|reflexivity]).
  assert (K1 : forall j, nth j fs false = true -> nth j fs1 false = true) by (intros j Hj; unfold fs1; destruct (is_launch x); [now apply set_nth_keeps|exact Hj]).
  destruct (IH fs1) as (A & B & C); [intros j y Hj; rewrite L1; eapply H; right; exact Hj|].
  split; [congruence|]. split; [auto|]. intros j k [E|E]; [|eapply C; exact E]. injection E as -> ->. apply B. unfold fs1. cbn [is_launch]. now apply set_nth_true.
Qed.

Lemma nth_app_old (l : list bool) a i : nth i l false = true -> nth i (l ++ [a]) false = true.
Proof.
  intros H. destruct (lt_dec i (length l)); [now rewrite app_nth1|]. rewrite nth_overflow in H by lia. discriminate.
Qed.

(** Writes of the host. *)
Lemma inv_write s c g v f fb : inv s c g -> has_host (views v) = true -> ~ In v (used s) ->
  length (f (c_mem c v)) = size v -> (at_host views (g_host g) (g_dev g) v = c_mem c v \/ f = fun _ => fb) -> (forall b, length b = size v -> length (f b) = size v) ->
  exists g', gpu_op views size kernels (Write v f) g = Some g' /\
    inv (Plan (setb (p_host s) v true) (setb (p_dev s) v (is_shared (views v))) (p_open s) (p_busy s) (p_flying s) (p_closed s) (p_count s) (p_started s) (p_valid s))
        (cpu_op views size kernels (Write v f) c) g'.
Proof.
  intros H Hh N Lf Same Len. set (s' := Plan _ _ _ _ _ _ _ _ _).
  assert (V : f (at_host views (g_host g) (g_dev g) v) = f (c_mem c v)) by (destruct Same as [->| ->]; reflexivity).
  cbn [cpu_op]. rewrite Hh.
  set (h := if is_shared (views v) then g_host g else upd (g_host g) v (f (g_host g v))).
  set (d := if is_shared (views v) then upd (g_dev g) v (f (g_dev g v)) else g_dev g).
  set (g' := Gpu h d (g_lists g) (g_closed g) (g_queue g) (g_futures g) (g_seen g)).
  exists g'. split; [unfold g', h, d; cbn [gpu_op]; destruct (views v); try discriminate Hh; reflexivity|].
  assert (A : agree v (h, d) (g_host g, g_dev g)).
  { intros w W. unfold h, d. cbn [fst snd]. destruct (is_shared (views v)); rewrite ?upd_other by auto; auto. }
  assert (P : pending s' g' = pending s g) by reflexivity.
  pose proof (final_change s c g v h d H N A) as (F1 & F2 & F3).
  assert (F : final s' g' = gall (pending s g) (h, d)) by reflexivity.
  pose proof (i_host _ _ _ H) as Sh. pose proof (i_dev _ _ _ H) as Sd. pose proof (i_cmem _ _ _ H) as Sc.
  assert (AtV : at_host views h d v = f (c_mem c v)).
  { rewrite <- V. unfold at_host, h, d. destruct (is_shared (views v)); now rewrite upd_same. }
  constructor; cbn [c_mem c_futures c_seen g_host g_dev g_lists g_closed g_queue g_futures g_seen g' p_open p_busy p_flying p_closed p_count p_started p_valid s'];
    try (now destruct H).
  - apply upd_sized; auto.
  - unfold h. destruct (is_shared (views v)); auto. apply upd_sized; auto.
  - unfold d. destruct (is_shared (views v)); auto. apply upd_sized; auto.
  - rewrite F. cbn [p_dev s']. intros w Hw. destruct (Nat.eq_dec w v) as [->|E].
    + rewrite setb_same in Hw. rewrite upd_same, F3, <- AtV. unfold at_host. now rewrite Hw.
    + rewrite setb_other in Hw by auto. rewrite upd_other by auto. rewrite (proj2 (F1 w E)). apply (i_ondev _ _ _ H w Hw).
  - rewrite F. intros w Hw. destruct (Nat.eq_dec w v) as [->|E].
    + rewrite upd_same. unfold at_host in *. rewrite F2, F3. exact AtV.
    + rewrite upd_other by auto. unfold at_host. rewrite (proj1 (F1 w E)), (proj2 (F1 w E)). apply (i_onhost _ _ _ H w). unfold on_host in *. cbn [p_dev p_host s'] in Hw. rewrite !setb_other in Hw by auto. exact Hw.
Qed.

(** What the program does, on both devices. *)
Lemma inv_op s o s' c g : inv s c g -> follows views size kernels s o s' -> (o = Wait -> g_queue g = []) ->
  exists g', gpu_op views size kernels o g = Some g' /\ inv s' (cpu_op views size kernels o c) g'.
Proof.
  intros H St Q. destruct St as [s v f A B N L|s v b A N L|s v A B N|s i V|s l x hp dp O Cl Z C|s l vs O|s|s l I N|s O].
  - apply (inv_write s c g v f []); auto.
    + apply L, (i_cmem _ _ _ H).
    + left. destruct (final_unused s c g v H N) as [E1 E2]. rewrite <- (i_onhost _ _ _ H v B). unfold at_host. now rewrite E1, E2.
  - apply (inv_write s c g v (fun _ => b) b); auto.
  - cbn [gpu_op cpu_op]. rewrite A. eexists. split; [reflexivity|]. destruct (final_unused s c g v H N) as [E1 E2].
    assert (E : at_host views (g_host g) (g_dev g) v = c_mem c v) by (rewrite <- (i_onhost _ _ _ H v B); unfold at_host; now rewrite E1, E2).
    destruct H. constructor; auto. cbn [g_seen c_seen]. now rewrite E, i_seen0.
  - cbn [gpu_op cpu_op]. eexists. split; [reflexivity|]. destruct H. constructor; auto. cbn [g_seen c_seen]. destruct (i_valid0 i V) as [-> ->]. now rewrite i_seen0.
  - cbn [gpu_op cpu_op]. rewrite (i_closed _ _ _ H), (proj2 (memn_out _ _) Cl).
    destruct (final s g) as [fh fd] eqn:F.
    assert (SF : sized fh /\ sized fd).
    { pose proof (all_sized (pending s g) (g_host g, g_dev g)) as X. unfold final in F. rewrite F in X. apply X; destruct H; auto. }
    destruct (command_sim s x hp dp (c_mem c) fh fd C) as (T & NH & S1 & D1 & H1); try tauto.
    { apply (i_cmem _ _ _ H). } { intros v Hv. rewrite <- (i_ondev _ _ _ H v Hv), F. reflexivity. } { intros v Hv. rewrite <- (i_onhost _ _ _ H v Hv), F. reflexivity. }
    rewrite T, NH. cbn [orb]. eexists. split; [reflexivity|].
    set (s' := Plan _ _ _ _ _ _ _ _ _). set (g' := Gpu _ _ _ _ _ _ _).
    assert (OL : g_lists g l = opened s g).
    { destruct O as [O|[vs O]]; unfold opened; rewrite O; [|reflexivity]. apply (i_lists _ _ _ H); [exact Cl|]. intros vs. rewrite O. discriminate. }
    assert (OP : opened s' g' = opened s g ++ [(length (g_futures g), x)]).
    { unfold opened at 1. cbn [p_open s' g_lists g']. rewrite set_list_same, OL. reflexivity. }
    assert (P : pending s' g' = pending s g ++ [x]). { unfold pending. rewrite OP, map_app, app_assoc. reflexivity. }
    assert (F' : final s' g' = gdo x (fh, fd)). { unfold final. rewrite P, all_app. cbn [g_host g_dev g']. fold (final s g). rewrite F. reflexivity. }
    constructor; cbn [c_mem c_futures c_seen g_host g_dev g_lists g_closed g_queue g_futures g_seen g' p_open p_busy p_flying p_closed p_count p_started p_valid s'].
    + exact S1.
    + apply (i_host _ _ _ H).
    + apply (i_dev _ _ _ H).
    + intros y Hy. rewrite P in Hy. apply in_app_iff in Hy. destruct Hy as [Hy|[<-|[]]]; [now apply (i_big _ _ _ H)|exact T].
    + intros v Hv. rewrite F'. apply D1, Hv.
    + intros v Hv. rewrite F'. apply H1. exact Hv.
    + apply (i_queue _ _ _ H).
    + intros y Hy v Hv. rewrite OP, map_app in Hy. unfold open_views. cbn [p_open s']. apply in_app_iff. apply in_app_iff in Hy. destruct Hy as [Hy|[<-|[]]]; [right|left; exact Hv].
      apply (i_opened _ _ _ H y Hy v Hv).
    + apply (i_tags _ _ _ H).
    + intros vs E. injection E as -> _. auto.
    + reflexivity.
    + apply (i_zero _ _ _ H).
    + intros l' vs E. injection E as <- _. exact Cl.
    + intros l' Cl' E. rewrite set_list_other; [|intros ->; eapply E; reflexivity]. apply (i_lists _ _ _ H l' Cl'). intros vs Ho.
      destruct O as [O|[vs' O]]; rewrite O in Ho; [discriminate|]. injection Ho as <- <-. eapply E. reflexivity.
    + apply (i_seen _ _ _ H).
    + rewrite !app_length. cbn [length]. destruct (i_nfut _ _ _ H). lia.
    + intros i y Hy. destruct (Nat.eq_dec 0 l) as [<-|E].
      * rewrite set_list_same in Hy. apply in_app_iff in Hy. destruct Hy as [Hy|[Hy|[]]]; [apply (i_nums _ _ _ H) in Hy; lia|]. injection Hy as <- _. destruct (i_nfut _ _ _ H). lia.
      * rewrite set_list_other in Hy by auto. apply (i_nums _ _ _ H) in Hy. lia.
    + intros i Hi. destruct (i_valid _ _ _ H i Hi). split; now apply nth_app_old.
    + intros i Hi. destruct (i_nfut _ _ _ H) as [G1 G2].
      assert (Old : In i (p_started s) -> nth i (c_futures c ++ [is_launch x]) false = true /\ exists k, In (i, Launch k) (set_list (g_lists g) l (g_lists g l ++ [(length (g_futures g), x)]) 0)).
      { intros Hi'. destruct (i_started _ _ _ H i Hi') as [X [k Y]]. split; [now apply nth_app_old|]. exists k. unfold set_list. destruct (0 =? l) eqn:E; [|exact Y].
        apply Nat.eqb_eq in E. subst l. apply in_app_iff. now left. }
      destruct ((l =? 0) && is_launch x) eqn:E; [|auto]. destruct Hi as [<-|Hi]; [|auto]. apply andb_true_iff in E. destruct E as [E1 E2]. apply Nat.eqb_eq in E1. subst l.
      split; [rewrite app_nth2 by lia; rewrite G2, Nat.sub_diag; exact E2|]. destruct x as [| | |k|]; try discriminate. exists k. rewrite set_list_same. apply in_app_iff. right. left. f_equal. exact G1.
  - cbn [gpu_op cpu_op]. eexists. split; [reflexivity|]. set (s' := Plan _ _ _ _ _ _ _ _ _). set (g' := Gpu _ _ _ _ _ _ _).
    assert (OP : opened s g = g_lists g (S l)) by (unfold opened; now rewrite O).
    assert (P : pending s' g' = pending s g).
    { unfold pending, opened at 1. cbn [p_open s' g_queue g']. rewrite OP, map_app, map_map. cbn [snd map]. now rewrite app_nil_r. }
    assert (F : final s' g' = final s g) by (unfold final; rewrite P; reflexivity).
    pose proof (i_open _ _ _ H _ _ O) as NC. pose proof (i_closed _ _ _ H) as CE. pose proof (i_opened _ _ _ H) as IO. rewrite OP in IO. unfold open_views in IO. rewrite O in IO.
    pose proof (i_zero _ _ _ H) as IZ. pose proof (i_lists _ _ _ H) as IL.
    constructor; cbn [c_mem c_futures c_seen g_host g_dev g_lists g_closed g_queue g_futures g_seen g' p_open p_busy p_flying p_closed p_count p_started p_valid s'];
      try (now destruct H).
    + intros y. rewrite P. apply (i_big _ _ _ H).
    + intros v Hv. rewrite F. apply (i_ondev _ _ _ H v Hv).
    + intros v Hv. rewrite F. apply (i_onhost _ _ _ H v Hv).
    + intros y Hy v Hv. rewrite map_app, map_map in Hy. cbn [snd] in Hy. apply in_app_iff. apply in_app_iff in Hy. destruct Hy as [Hy|Hy]; [right; apply (i_queue _ _ _ H y Hy v Hv)|left; apply (IO y Hy v Hv)].
    + intros t Ht. rewrite map_app, map_map in Ht. cbn [fst] in Ht. apply in_app_iff in Ht. destruct Ht as [Ht|Ht]; [right; apply (i_tags _ _ _ H t Ht)|left]. apply in_map_iff in Ht. destruct Ht as (z & E & _). exact E.
    + now rewrite CE.
    + intros [E|E]; [discriminate|auto].
    + intros l' Hl' _. apply IL; [intros Y; apply Hl'; now right|]. intros vs' E. rewrite O in E. injection E as <- _. apply Hl'. now left.
  - cbn [gpu_op cpu_op]. rewrite (Q eq_refl). eexists. split; [reflexivity|]. set (s' := Plan _ _ _ _ _ _ _ _ _).
    destruct H. constructor; auto.
    + intros y Hy. rewrite (Q eq_refl) in Hy. destruct Hy.
    + intros t Ht. rewrite (Q eq_refl) in Ht. destruct Ht.
  - cbn [gpu_op cpu_op]. destruct (memn (S l) (map fst (g_queue g))) eqn:M; [apply memn_in in M; exfalso; apply N, (i_tags _ _ _ H), M|].
    eexists. split; [reflexivity|]. set (s' := Plan _ _ _ _ _ _ _ _ _). set (g' := Gpu _ _ _ _ _ _ _).
    assert (OP : opened s' g' = opened s g).
    { unfold opened. cbn [p_open s' g_lists g']. destruct (p_open s) as [[l' vs]|] eqn:O; [|reflexivity]. apply set_list_other. intros ->. apply (i_open _ _ _ H _ _ O I). }
    assert (P : pending s' g' = pending s g) by (unfold pending; rewrite OP; reflexivity).
    assert (F : final s' g' = final s g) by (unfold final; rewrite P; reflexivity).
    assert (G0 : g_lists g' 0 = g_lists g 0) by (apply set_list_other; discriminate).
    constructor; cbn [c_mem c_futures c_seen g_host g_dev g_closed g_queue g_futures g_seen g' p_open p_busy p_flying p_closed p_count p_started p_valid s'];
      try (now destruct H); fold g'.
    + intros y. rewrite P. apply (i_big _ _ _ H).
    + intros v Hv. rewrite F. apply (i_ondev _ _ _ H v Hv).
    + intros v Hv. rewrite F. apply (i_onhost _ _ _ H v Hv).
    + intros y. rewrite OP. apply (i_opened _ _ _ H).
    + now rewrite (i_closed _ _ _ H).
    + intros Y. apply filter_In in Y. now apply (i_zero _ _ _ H).
    + intros l' vs O Y. apply filter_In in Y. now apply (i_open _ _ _ H _ _ O).
    + intros l' Y E. cbn [g_lists g']. destruct (Nat.eq_dec l' (S l)) as [->|D]; [apply set_list_same|]. rewrite set_list_other by auto. apply (i_lists _ _ _ H); [|exact E].
      intros Y'. apply Y. apply filter_In. split; [exact Y'|]. now rewrite (proj2 (Nat.eqb_neq _ _) D).
  - cbn [gpu_op cpu_op]. destruct (i_nfut _ _ _ H) as [G1 G2].
    destruct (make_valid_ok (g_lists g 0) (g_futures g)) as (M1 & M2 & M3); [intros i y Hy; apply (i_nums _ _ _ H) in Hy; lia|].
    assert (V : forall i, In i (p_started s ++ p_valid s) -> nth i (make_valid (g_lists g 0) (g_futures g)) false = true /\ nth i (c_futures c) false = true).
    { intros i Hi. apply in_app_iff in Hi. destruct Hi as [Hi|Hi].
      - destruct (i_started _ _ _ H i Hi) as [X [k Y]]. split; [eapply M3; exact Y|exact X].
      - destruct (i_valid _ _ _ H i Hi). auto. }
    assert (L0 : forall l, ~ In l (p_closed s) -> (forall vs, p_open s <> Some (S l, vs)) -> set_list (g_lists g) 0 [] l = []).
    { intros l Hl Hn. unfold set_list. destruct (l =? 0) eqn:E; [reflexivity|]. apply (i_lists _ _ _ H); [exact Hl|]. intros vs E2.
      destruct O as [O|[vs' O]]; rewrite O in E2; [discriminate|]. injection E2 as <- _. discriminate. }
    destruct O as [O|[vs O]].
    + assert (T2 : g_lists g 0 = []). { apply (i_lists _ _ _ H); [apply (i_zero _ _ _ H)|]. intros vs. rewrite O. discriminate. }
      replace (gpu_all views kernels (map snd (g_lists g 0)) (g_host g, g_dev g)) with (g_host g, g_dev g) by (rewrite T2; reflexivity).
      eexists. split; [reflexivity|]. set (s' := Plan _ _ _ _ _ _ _ _ _). set (g' := Gpu _ _ _ _ _ _ _).
      assert (OP : opened s' g' = opened s g) by (unfold opened; rewrite O; reflexivity).
      assert (P : pending s' g' = pending s g) by (unfold pending; rewrite OP; reflexivity).
      assert (F : final s' g' = final s g) by (unfold final; rewrite P; reflexivity).
      constructor; cbn [c_mem c_futures c_seen g_host g_dev g_lists g_closed g_queue g_futures g_seen g' p_open p_busy p_flying p_closed p_count p_started p_valid s'];
        try (now destruct H).
      * intros y. rewrite P. apply (i_big _ _ _ H).
      * intros v Hv. rewrite F. apply (i_ondev _ _ _ H v Hv).
      * intros v Hv. rewrite F. apply (i_onhost _ _ _ H v Hv).
      * intros l Hl _. apply L0; [exact Hl|]. intros vs. rewrite O. discriminate.
      * lia.
    + assert (T : g_queue g = []).
      { pose proof (i_tags _ _ _ H) as X. rewrite (i_task _ _ _ H vs O) in X. destruct (g_queue g) as [|[t y] q]; [reflexivity|]. destruct (X t). now left. }
      assert (PE : pending s g = map snd (g_lists g 0)) by (unfold pending, opened; rewrite O, T; reflexivity).
      assert (F : gpu_all views kernels (map snd (g_lists g 0)) (g_host g, g_dev g) = final s g) by (unfold final; rewrite PE; reflexivity).
      rewrite F. destruct (final s g) as [fh fd] eqn:F2.
      assert (SF : sized fh /\ sized fd).
      { pose proof (all_sized (pending s g) (g_host g, g_dev g)) as X. unfold final in F2. rewrite F2 in X. apply X; destruct H; auto. }
      eexists. split; [reflexivity|]. set (s' := Plan _ _ _ _ _ _ _ _ _). set (g' := Gpu _ _ _ _ _ _ _).
      assert (P : pending s' g' = []) by (unfold pending, opened; cbn [p_open s' g_queue g']; rewrite T; reflexivity).
      assert (F' : final s' g' = (fh, fd)) by (unfold final; rewrite P; reflexivity).
      constructor; cbn [c_mem c_futures c_seen g_host g_dev g_lists g_closed g_queue g_futures g_seen g' p_open p_busy p_flying p_closed p_count p_started p_valid s'];
        try tauto; try (now destruct H).
      * intros y. rewrite P. intros [].
      * intros v Hv. rewrite F'. cbn [snd]. rewrite <- (i_ondev _ _ _ H v Hv), F2. reflexivity.
      * intros v Hv. rewrite F'. cbn [fst snd]. rewrite <- (i_onhost _ _ _ H v Hv), F2. reflexivity.
      * first [lia|intros l Hl _; apply L0; [exact Hl|]; intros vs'; rewrite O; discriminate].
      * first [lia|intros l Hl _; apply L0; [exact Hl|]; intros vs'; rewrite O; discriminate].
Qed.

(** From the beginning. *)
Lemma inv_start m h d : sized m -> sized h -> sized d -> (forall v, views v = App -> h v = m v) -> inv (plan0 views) (cpu_start m) (gpu_start h d).
Proof.
  intros Sm Sh Sd E. constructor; cbn; auto; try (intros; contradiction); try discriminate.
  intros v. unfold on_host, at_host. cbn. specialize (E v). destruct (views v); cbn; intros Hv; try discriminate. unfold final. cbn. now apply E.
Qed.

Lemma runs_inv p g1 g2 : gpu_run views size kernels p g1 g2 -> forall s c s', inv s c g1 -> follow views size kernels s p s' -> inv s' (cpu_run views size kernels p c) g2.
Proof.
  induction 1 as [g|o p g1 g2 g3 E R IH|p g1 g2 g3 E R IH]; intros s c s' H Fo.
  - inversion Fo; subst. exact H.
  - inversion Fo as [|? ? s1 ? ? St Fo']; subst. destruct (inv_op s o s1 c g1 H St) as (g' & E' & H').
    + intros ->. cbn in E. destruct (g_queue g1); [reflexivity|discriminate].
    + rewrite E in E'. injection E' as <-. cbn [cpu_run fold_left]. eapply IH; eauto.
  - eapply IH; eauto. eapply inv_step; eauto.
Qed.

(** The device can do everything in the queue. *)
Lemma drain p n : forall g, length (g_queue g) = n ->
  exists g', g_queue g' = [] /\ (forall s c, inv s c g -> inv s c g') /\ (forall g3, gpu_run views size kernels p g' g3 -> gpu_run views size kernels p g g3).
Proof.
  induction n as [|n IH]; intros g L.
  - exists g. split; [destruct (g_queue g); [reflexivity|discriminate]|]. auto.
  - destruct (g_queue g) as [|[t x] q] eqn:Q; [discriminate|].
    destruct (gpu_step views kernels g) as [g1|] eqn:E; [|unfold gpu_step in E; rewrite Q in E; destruct (gdo x (g_host g, g_dev g)); discriminate].
    assert (L1 : length (g_queue g1) = n). { unfold gpu_step in E. rewrite Q in E. destruct (gdo x (g_host g, g_dev g)). injection E as <-. cbn in *. lia. }
    destruct (IH g1 L1) as (g' & A & B & C). exists g'. split; [exact A|]. split.
    + intros s c H. apply B. eapply inv_step; eauto.
    + intros g3 R. eapply R_dev; eauto.
Qed.
Lemma can_run p : forall s c g s', inv s c g -> follow views size kernels s p s' -> exists g', gpu_run views size kernels p g g'.
Proof.
  induction p as [|o p IH]; intros s c g s' H Fo; [exists g; constructor|]. inversion Fo as [|? ? s1 ? ? St Fo']; subst.
  destruct (drain (o :: p) _ g eq_refl) as (g1 & Q & H1 & R).
  destruct (inv_op s o s1 c g1 (H1 _ _ H) St (fun _ => Q)) as (g2 & E & H2). destruct (IH _ _ _ _ H2 Fo') as [g3 R3].
  exists g3. apply R. eapply R_op; eauto.
Qed.
Lemma follow_app p1 : forall s p2 s', follow views size kernels s (p1 ++ p2) s' -> exists s1, follow views size kernels s p1 s1 /\ follow views size kernels s1 p2 s'.
Proof.
  induction p1 as [|o p1 IH]; intros s p2 s' H; [exists s; split; [constructor|exact H]|]. inversion H as [|? ? s1 ? ? St Fo]; subst.
  destruct (IH _ _ _ Fo) as (s2 & A & B). exists s2. split; [econstructor; eauto|exact B].
Qed.

(** What is seen on the CPU. *)
Lemma seen_ok p : forall s c g s', inv s c g -> follow views size kernels s p s' ->
  (forall e, In e (c_seen c) -> (forall x, e <> Failed x) /\ (forall i, e <> IsValid i false)) ->
  forall e, In e (c_seen (cpu_run views size kernels p c)) -> (forall x, e <> Failed x) /\ (forall i, e <> IsValid i false).
Proof.
  induction p as [|o p IH]; intros s c g s' H Fo Old e He; [now apply Old|]. inversion Fo as [|? ? s1 ? ? St Fo']; subst.
  destruct (drain (o :: p) _ g eq_refl) as (g1 & Q & H1 & R). specialize (H1 _ _ H).
  destruct (inv_op s o s1 c g1 H1 St (fun _ => Q)) as (g2 & E & H2). cbn [cpu_run fold_left] in He. refine (IH _ _ _ _ H2 Fo' _ e He).
  clear e He. intros e He. destruct St as [s v f A B N L|s v b A N L|s v A B N|s i V|s l x hp dp O Cl Z C|s l vs O|s|s l I1 N|s O]; cbn [cpu_op] in He; try (now apply Old).
  - rewrite A in He. now apply Old.
  - rewrite A in He. now apply Old.
  - rewrite A in He. cbn [c_seen] in He. apply in_app_iff in He. destruct He as [He|[<-|[]]]; [now apply Old|]. split; intros; discriminate.
  - cbn [c_seen] in He. apply in_app_iff in He. destruct He as [He|[<-|[]]]; [now apply Old|]. destruct (i_valid _ _ _ H1 i V) as [_ ->]. split; intros; discriminate.
  - assert (T : too_big size x = false).
    { destruct C as [s v A B|s v A B|s x y n N L1 L2 B W|s k R'|s]; try reflexivity. cbn. apply orb_false_iff. split; apply Nat.ltb_ge; lia. }
    rewrite T in He. cbn [c_seen] in He. now apply Old.
Qed.
End Proofs.

(** Executions in which the device does everything at once. *)
Fixpoint all_steps (views : nat -> kind) (kernels : nat -> kernel) (n : nat) (g : gpu) : gpu :=
  match n with O => g | S n => match gpu_step views kernels g with Some g => all_steps views kernels n g | None => g end end.
Fixpoint exec (views : nat -> kind) (size : nat -> nat) (kernels : nat -> kernel) (n : nat) (p : list op) (g : gpu) : option gpu :=
  match p with
  | [] => Some g
  | o :: p => match gpu_op views size kernels o (all_steps views kernels n g) with Some g => exec views size kernels n p g | None => None end
  end.
Lemma all_steps_run views size kernels n p : forall g g', gpu_run views size kernels p (all_steps views kernels n g) g' -> gpu_run views size kernels p g g'.
Proof.
  induction n as [|n IH]; intros g g' R; [exact R|]. cbn [all_steps] in R. destruct (gpu_step views kernels g) as [g1|] eqn:E; [|exact R]. eapply R_dev; eauto.
Qed.
Lemma exec_run views size kernels n p : forall g g', exec views size kernels n p g = Some g' -> gpu_run views size kernels p g g'.
Proof.
  induction p as [|o p IH]; intros g g' E; cbn [exec] in E; [injection E as ->; constructor|].
  destruct (gpu_op views size kernels o (all_steps views kernels n g)) as [g1|] eqn:E1; [|discriminate]. apply (all_steps_run _ _ _ n). eapply R_op; eauto.
Qed.
Lemma exec_seen views size kernels n p g l : option_map g_seen (exec views size kernels n p g) = Some l -> exists g', gpu_run views size kernels p g g' /\ g_seen g' = l.
Proof. destruct (exec views size kernels n p g) as [g'|] eqn:E; [|discriminate]. cbn. intros [= <-]. exists g'. split; [eapply exec_run; eauto|reflexivity]. Qed.
