(** Proofs about the memory pool (C67): chunks are used again. *)
From Coq Require Import List Bool Arith Lia Permutation.
Import ListNotations.
From Verif Require Import PoolModel PoolSpec PoolProofs PoolProofs2 PoolProofs3 PoolProofs4.

(** ** What freeing does to the lists *)
Definition freed (id ptr : nat) (b b' : bulk) : Prop := if b_id b =? id then free_chunk ptr b = Some b' else b' = b.
Lemma free_in_inv id ptr : forall l l', free_in id ptr l = Some l' -> Forall2 (freed id ptr) l l'.
Proof.
  induction l as [|b l IH]; intros l' H; cbn [free_in] in H; [injection H as <-; constructor|].
  destruct (free_in id ptr l) as [l1|]; [|discriminate]. destruct (b_id b =? id) eqn:E.
  - destruct (free_chunk ptr b) eqn:F; [|discriminate]. injection H as <-. constructor; auto. unfold freed. rewrite E. auto.
  - injection H as <-. constructor; auto. unfold freed. rewrite E. auto.
Qed.
Lemma free_lists_inv id ptr : forall ls ls', free_lists id ptr ls = Some ls' -> Forall2 (fun e e' => fst e = fst e' /\ Forall2 (freed id ptr) (snd e) (snd e')) ls ls'.
Proof.
  induction ls as [|(k & l) ls IH]; intros ls' H; cbn [free_lists] in H; [injection H as <-; constructor|].
  destruct (free_in id ptr l) as [l1|] eqn:E; [|discriminate]. destruct (free_lists id ptr ls) as [ls1|]; [|discriminate]. injection H as <-.
  constructor; auto. split; auto. apply free_in_inv. auto.
Qed.
Lemma freed_mem id ptr b b' : freed id ptr b b' -> b_mem b' = b_mem b /\ (full b = false -> full b' = false) /\ (b_id b = id -> full b' = false).
Proof.
  unfold freed. destruct (Nat.eqb_spec (b_id b) id) as [E|E]; intros H; [|subst b'; split; auto; split; auto; congruence].
  unfold free_chunk in H. destruct (find_key ptr (b_used b)); [|discriminate]. injection H as <-.
  assert (F : full (Bulk (b_id b) (b_chunk b) (b_num b) (b_mem b) (b_init b) (b_free b ++ [n]) (erase ptr (b_used b))) = false)
    by (unfold full; cbn; destruct (b_free b); cbn; now rewrite andb_false_r).
  cbn [b_mem]. auto.
Qed.
Lemma forall2_in {A} (P : A -> A -> Prop) : forall l l', Forall2 P l l' -> forall y, In y l' -> exists x, In x l /\ P x y.
Proof. induction 1 as [|a b l l' H _ IH]; intros y Y; [destruct Y|]. destruct Y as [<-|Y]; [exists a; split; [left; auto|auto]|]. destruct (IH y Y) as (x & X & XY). exists x. split; [right; auto|auto]. Qed.
Lemma forall2_in_l {A} (P : A -> A -> Prop) : forall l l', Forall2 P l l' -> forall x, In x l -> exists y, In y l' /\ P x y.
Proof. induction 1 as [|a b l l' H _ IH]; intros y Y; [destruct Y|]. destruct Y as [<-|Y]; [exists b; split; [left; auto|auto]|]. destruct (IH y Y) as (x & X & XY). exists x. split; [right; auto|auto]. Qed.

(** ** All bulks of a list have memory, or there is one that has never been used *)
Definition backed (l : list bulk) : Prop := (forall b, In b l -> b_mem b <> None) \/ exists b, l = [b] /\ b_mem b = None /\ full b = false.
Definition pool_backed (p : pool) : Prop := forall k l, In (k, l) (p_lists p) -> backed l.

Lemma rotate_finds : forall n l, (exists m b, nth_error l m = Some b /\ full b = false /\ m < n) -> snd (rotate n l) = true.
Proof.
  induction n as [|n IH]; intros l (m & b & N & F & L); [lia|]. cbn [rotate]. destruct l as [|x r]; [destruct m; discriminate|].
  destruct (full x) eqn:FX; [|reflexivity]. apply IH. destruct m as [|m]; [cbn in N; congruence|]. cbn in N. exists m, b. split; [|split; [auto|lia]].
  rewrite nth_error_app1; auto. apply nth_error_Some. congruence.
Qed.
Lemma rotate_room l b : In b l -> full b = false -> exists c r, rotate (length l) l = (c :: r, true) /\ full c = false /\ Permutation l (c :: r).
Proof.
  intros I0 F. destruct (In_nth_error l b I0) as (m & N). assert (S0 : snd (rotate (length l) l) = true).
  { apply rotate_finds. exists m, b. split; auto. split; auto. apply nth_error_Some. congruence. }
  destruct (rotate (length l) l) as (l' & f) eqn:R. cbn in S0. subst f. destruct (rotate_ok _ _ _ _ R) as (P & Q). destruct (Q eq_refl) as (c & r & -> & FC). exists c, r. auto.
Qed.
Lemma take_backed base b b' ptr : take_chunk base b = Got (b', ptr) -> b_mem b' <> None.
Proof. unfold take_chunk. destruct (b_free b); [destruct (b_init b <? b_num b); [|discriminate]|]; intros H; injection H as <- _; discriminate. Qed.
Lemma alloc_in_backed d n b t hs t' hs' b' ptr : alloc_in d n b t hs = (t', hs', Got (b', ptr)) -> b_mem b' <> None.
Proof.
  unfold alloc_in. destruct (b_mem b); [intros H; injection H as _ _ H; eapply take_backed; eauto|].
  destruct (ask d t hs n) as ((t1 & h1) & [base|]); [|discriminate]. intros H. injection H as _ _ H. eapply take_backed; eauto.
Qed.
Lemma alloc_backed d size p t hs p' t' hs' ptr : pool_backed p -> pool_alloc d size p t hs = (p', t', hs', Got ptr) -> pool_backed p'.
Proof.
  intros B H. unfold pool_alloc in H. destruct (find_key size (p_lists p)) as [[|b0 l0]|] eqn:FK; try discriminate.
  set (l := b0 :: l0) in *. pose proof (B _ _ (find_in _ _ _ _ FK)) as BL.
  assert (SET : forall l2 al nx, (forall b, In b l2 -> b_mem b <> None) -> pool_backed (Pool (p_min p) (p_max p) (set_list size l2 (p_lists p)) al nx)).
  { intros l2 al nx M k m I0. cbn [p_lists] in I0. apply set_list_in in I0 as [(-> & ->)|I0]; [left; auto|eapply B; eauto]. }
  destruct (rotate (length l) l) as (l' & f) eqn:RO. destruct (rotate_ok _ _ _ _ RO) as (RP & RF).
  destruct BL as [M|(x & EX & NX & FX)].
  - assert (M' : forall b, In b l' -> b_mem b <> None) by (intros b I0; apply M; eapply Permutation_in; [symmetry; exact RP|auto]).
    assert (NEW : forall b, match alloc_in d (max_chunk p) b t hs with
          | (t, hs, Got (b', ptr)) => (Pool (p_min p) (p_max p) (set_list size (l' ++ [b']) (p_lists p)) (assign ptr (b_id b) (p_alloc p)) (S (p_next p)), t, hs, Got ptr)
          | (t, hs, Fail) => (Pool (p_min p) (p_max p) (set_list size (l' ++ [b]) (p_lists p)) (p_alloc p) (S (p_next p)), t, hs, Fail)
          | (t, hs, Broken) => (p, t, hs, Broken) end = (p', t', hs', Got ptr) -> pool_backed p').
    { intros b E. destruct (alloc_in d (max_chunk p) b t hs) as ((t1 & h1) & [(b' & q)| |]) eqn:AI; try discriminate. injection E as <- _ _ _. apply SET.
      intros y Y. apply in_app_or in Y as [Y|[<-|[]]]; auto. eapply alloc_in_backed; eauto. }
    destruct f; [|destruct l'; apply NEW in H; auto]. destruct (RF eq_refl) as (c & r & -> & FC).
    destruct (alloc_in d (max_chunk p) c t hs) as ((t1 & h1) & [(b' & q)| |]) eqn:AI; try discriminate. injection H as <- _ _ _. apply SET.
    intros y [<-|Y]; [eapply alloc_in_backed; eauto|apply M'; right; auto].
  - rewrite EX in RO. cbn [length rotate] in RO. rewrite FX in RO. injection RO as <- <-.
    destruct (alloc_in d (max_chunk p) x t hs) as ((t1 & h1) & [(b' & q)| |]) eqn:AI; try discriminate. injection H as <- _ _ _. apply SET.
    intros y [<-|[]]. eapply alloc_in_backed; eauto.
Qed.
Lemma free_backed ptr p p' : pool_backed p -> pool_free ptr p = Some p' -> pool_backed p'.
Proof.
  intros B H. unfold pool_free in H. destruct (find_key ptr (p_alloc p)) as [id|]; [|discriminate]. destruct (free_lists id ptr (p_lists p)) as [ls|] eqn:E; [|discriminate].
  injection H as <-. apply free_lists_inv in E. intros k l I0. cbn [p_lists] in I0. destruct (forall2_in _ _ _ E _ I0) as ((k2 & l2) & I2 & _ & F). cbn [snd] in F.
  destruct (B _ _ I2) as [M|(x & -> & NX & FX)].
  - left. intros b Y. destruct (forall2_in _ _ _ F _ Y) as (x & X & XY). destruct (freed_mem _ _ _ _ XY) as (-> & _). auto.
  - inversion F as [|? y ? l3 XY F0]; subst. inversion F0; subst. destruct (freed_mem _ _ _ _ XY) as (E1 & E2 & _). right. exists y. split; auto. split; [congruence|auto].
Qed.
Lemma start_backed lo hi w : start lo hi w -> pool_backed (w_pool w).
Proof.
  intros (p & E & ->). unfold new_pool in E. destruct ((1 <=? lo) && (lo <=? 30) && (lo <=? hi) && (hi <=? 30)) eqn:C; [|discriminate].
  apply (f_equal (fun o => match o with Some q => q | None => p end)) in E. rewrite <- E. clear E p C. intros k l I0. cbn [w_pool p_lists] in I0.
  apply in_map_iff in I0 as (i & E & I0). injection E as <- <-. apply in_seq in I0. right. eexists. split; [reflexivity|]. split; [reflexivity|].
  assert (L : i <= hi) by lia. destruct (new_bulk_ok 0 i hi L) as (_ & N & _). unfold full, new_bulk in *. cbn [b_init b_num b_free] in *.
  destruct (Nat.ltb_spec 0 (2 ^ hi / 2 ^ i)); [reflexivity|lia].
Qed.

(** ** The size of a view that has a chunk *)
Definition sized (w : world) : Prop := forall i v p, In (i, v) (w_views w) -> v_pool v = true -> v_ptr v = Some p -> v_size v <= max_chunk (w_pool w) ->
  v_size v = Nat.max (round_up_pow2 (v_req v)) (min_chunk (w_pool w)).
Lemma alloc_limits d size p t hs p' t' hs' r : pool_alloc d size p t hs = (p', t', hs', r) -> p_min p' = p_min p /\ p_max p' = p_max p.
Proof.
  unfold pool_alloc. destruct (find_key size (p_lists p)) as [[|b0 l0]|]; try (intros H; injection H as <- _ _ _; auto).
  destruct (rotate (length (b0 :: l0)) (b0 :: l0)) as ([|c r'] & []).
  all: match goal with |- context [alloc_in ?dd ?m ?b ?t ?h] => destruct (alloc_in dd m b t h) as ((t3 & h3) & [[]| |]) end; intros H; injection H as <- _ _ _; auto.
Qed.
Lemma free_limits ptr p p' : pool_free ptr p = Some p' -> p_min p' = p_min p /\ p_max p' = p_max p.
Proof.
  unfold pool_free. destruct (find_key ptr (p_alloc p)) as [id|]; [|discriminate]. destruct (free_lists id ptr (p_lists p)); [|discriminate]. intros H. injection H as <-. auto.
Qed.
Lemma step_more d w o w' r : pool_backed (w_pool w) -> sized w -> step d w o = (w', r) -> r <> Throw -> pool_backed (w_pool w') /\ sized w'.
Proof.
  intros B S0 E NT. unfold sized, max_chunk, min_chunk in *. destruct o as [id req pooled ctx|id|id|id]; cbn [step] in E.
  - injection E as <- <-. split; [exact B|]. cbn. intros i v p [H|H]; [injection H as <- <-; discriminate|]. apply erase_in in H as (H & _). eauto.
  - destruct (find_key id (w_views w)) as [v|] eqn:F; [|injection E as <- <-; auto]. unfold access in E. destruct (v_ptr v); [injection E as <- <-; auto|].
    destruct (v_pool v && negb (v_ctx v)); [injection E as <- <-; auto|]. unfold max_chunk in E. destruct (v_pool v && (v_size v <=? 2 ^ p_max (w_pool w))) eqn:PL.
    + destruct (pool_alloc _ _ _ _ _) as (((p' & t') & hs') & [ptr| |]) eqn:PA; injection E as <- <-; try congruence; auto.
      destruct (alloc_limits _ _ _ _ _ _ _ _ _ PA) as (L1 & L2). split; [eapply alloc_backed; eauto|]. cbn [w_views w_pool]. rewrite L1, L2.
      intros i x q [H|H]; [injection H as <- <-; cbn; auto|]. apply erase_in in H as (H & _). eauto.
    + destruct (ask d (w_time w) (w_hunks w) (v_size v)) as ((t' & hs') & [base|]); injection E as <- <-; [|congruence]. split; [exact B|]. cbn [w_views w_pool].
      intros i x q [H|H]; [|apply erase_in in H as (H & _); eauto]. injection H as <- <-. cbn. intros VP _ LE. rewrite VP in PL. cbn in PL. apply Nat.leb_gt in PL. lia.
  - destruct (find_key id (w_views w)); injection E as <- <-; auto.
  - destruct (find_key id (w_views w)) as [v|]; [|injection E as <- <-; auto]. unfold delete in E.
    assert (KE : forall i x, In (i, x) (erase id (w_views w)) -> In (i, x) (w_views w)) by (intros i x H; now apply erase_in in H).
    destruct (v_ptr v) as [q|]; [|injection E as <- <-; split; auto; cbn; eauto].
    destruct (v_pool v && negb (v_ctx v)); [injection E as <- <-; auto|]. destruct (v_pool v && _); [|injection E as <- <-; split; auto; cbn; eauto].
    destruct (pool_free q (w_pool w)) as [pl|] eqn:PF; injection E as <- <-; auto. destruct (free_limits _ _ _ PF) as (L1 & L2).
    split; [eapply free_backed; eauto|]. cbn [w_views w_pool]. rewrite L1, L2. eauto.
Qed.
Lemma run_more d : forall os w w' rs, pool_backed (w_pool w) -> sized w -> run d w os = (w', rs) -> ~ In Throw rs -> pool_backed (w_pool w') /\ sized w'.
Proof.
  induction os as [|o os IH]; intros w w' rs B S0 E NT; cbn [run] in E; [injection E as <- <-; auto|].
  destruct (step d w o) as (w1 & r) eqn:ST. destruct (run d w1 os) as (w2 & rs') eqn:RU. injection E as <- <-. cbn in NT.
  destruct (step_more _ _ _ _ _ B S0 ST) as (B1 & S1); [intros ->; apply NT; auto|]. eapply IH; eauto.
Qed.

(** ** A chunk that was freed is used again *)
Lemma reuse d lo hi w os w' rs i v q j w2 rs2 : driver_ok d -> start lo hi w -> proper [] os -> run d w os = (w', rs) -> ~ In Throw rs ->
  In (i, v) (w_views w') -> v_pool v = true -> v_ptr v = Some q -> v_size v <= 2 ^ hi -> ~ In j (map fst (w_views w')) ->
  run d w' [Delete i; New j (v_req v) true true; Access j] = (w2, rs2) ->
  w_time w2 = w_time w' /\ w_hunks w2 = w_hunks w' /\ exists p, rs2 = [Done; Done; Ptr p].
Proof.
  intros D ST0 P R NT IV VP VQ VS NJ E. destruct (history_ok d lo hi w os w' rs D ST0 P R) as (OK & _ & _).
  destruct (run_more d os w w' rs (start_backed _ _ _ ST0)) as (B & SZ); [destruct ST0 as (? & _ & ->); intros ? ? ? []|auto|auto|].
  destruct OK as (PO & _ & _ & _ & ND & VO & _). pose proof PO as (L0 & O1 & O2 & O3 & O4 & O5). destruct (VO _ _ IV) as (V1 & V2 & V3).
  assert (INP : in_pool (2 ^ hi) v = true) by (unfold in_pool; rewrite VP; cbn; now apply Nat.leb_le).
  destruct (V3 q VQ INP) as (b & IB & CB & UB). pose proof O5 as (A1 & _ & _ & A4 & A5).
  assert (AL : In (q, b_id b) (p_alloc (w_pool w'))) by (apply A5; exists b; auto).
  assert (MX : max_chunk (w_pool w') = 2 ^ hi) by (unfold max_chunk; now rewrite O2).
  pose proof (SZ i v q IV VP VQ ltac:(rewrite MX; auto)) as SV.
  (* delete *)
  cbn [run step] in E. rewrite (in_find _ _ _ _ ND IV) in E. unfold delete at 1 in E. rewrite VQ, VP, (V2 VP) in E. cbn [andb negb] in E. rewrite MX in E.
  destruct (Nat.leb_spec (v_size v) (2 ^ hi)) as [_|]; [|lia].
  destruct (pool_free_ok lo hi (w_pool w') q PO) as (p' & PF & PO' & _); [apply in_map_iff; exists (q, b_id b); auto|]. rewrite PF in E.
  destruct (free_limits _ _ _ PF) as (LM1 & LM2). pose proof (free_backed _ _ _ B PF) as B'.
  cbn [w_pool w_views w_hunks w_time] in E. unfold assign at 1 in E. cbn [find_key] in E. rewrite Nat.eqb_refl in E. unfold access in E.
  cbn [v_ptr v_pool v_ctx v_size v_req andb negb w_pool w_views w_hunks w_time] in E.
  replace (max_chunk p') with (2 ^ hi) in E by (unfold max_chunk; now rewrite LM2, O2).
  destruct (Nat.leb_spec (v_req v) (2 ^ hi)) as [_|]; [|lia]. replace (min_chunk p') with (min_chunk (w_pool w')) in E by (unfold min_chunk; now rewrite LM1).
  rewrite <- SV in E.
  (* the list has a bulk with a free chunk *)
  unfold all_bulks in IB. apply in_flat_map in IB as ((kk & l) & IL & IBl). cbn [snd] in IBl. destruct (O4 _ _ IL) as (_ & CH). pose proof (CH _ IBl) as CK. rewrite CB in CK. subst kk.
  assert (MB : b_mem b <> None).
  { rewrite Forall_forall in A1. destruct (A1 b) as (_ & _ & _ & _ & _ & _ & _ & _ & U); [apply in_flat_map; eexists; split; [exact IL|auto]|].
    apply in_map_iff in UB as ((q2 & n2) & _ & UB). destruct (U _ _ UB) as (base & -> & _). discriminate. }
  unfold pool_free in PF. rewrite (in_find _ _ _ _ A4 AL) in PF. destruct (free_lists (b_id b) q (p_lists (w_pool w'))) as [ls'|] eqn:FL; [|discriminate]. injection PF as <-.
  pose proof (keys_nodup _ _ _ PO') as KN. cbn [p_lists] in KN. apply free_lists_inv in FL. destruct (forall2_in_l _ _ _ FL _ IL) as ((k2 & l') & IL' & K2 & F2). cbn [fst snd] in K2, F2. subst k2.
  destruct (forall2_in_l _ _ _ F2 _ IBl) as (b' & IB' & FB). destruct (freed_mem _ _ _ _ FB) as (MB' & _ & FF). specialize (FF eq_refl).
  unfold pool_alloc in E. cbn [p_lists p_min p_max p_alloc p_next] in E. rewrite (in_find _ _ _ _ KN IL') in E. destruct l' as [|x0 l0] eqn:EL; [destruct IB'|]. rewrite <- EL in *.
  destruct (rotate_room l' b' IB' FF) as (c & rr & RO & FC & RP). rewrite RO in E.
  assert (MC : b_mem c <> None).
  { assert (IC : In c l') by (eapply Permutation_in; [symmetry; exact RP|left; auto]). destruct (B' _ _ IL') as [M|(x & EX & NX & _)]; [auto|]. rewrite EX in IB', IC. destruct IB' as [<-|[]]. congruence. }
  destruct (b_mem c) as [base|] eqn:EC; [|congruence]. unfold alloc_in in E. rewrite EC in E.
  assert (TK : exists c' ptr, take_chunk base c = Got (c', ptr)).
  { unfold take_chunk. unfold full in FC. destruct (b_free c); [|eauto]. rewrite andb_true_r in FC. apply negb_false_iff in FC. rewrite FC. eauto. }
  destruct TK as (c' & ptr & TK). rewrite TK in E. injection E as <- <-. split; [reflexivity|]. split; [reflexivity|]. eauto.
Qed.
