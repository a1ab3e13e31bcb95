(** Proofs about initializers (C64): lists for uniform vectors. *)
From Coq Require Import List Bool Arith Lia Permutation.
Import ListNotations.
From Verif Require Import CastModel InitModel InitSpec InitProofs.

Lemma put_length : forall {A} k (x : A) l, length (put k x l) = length l.
Proof. intros A k x l. revert k. induction l; intros [|k]; cbn; auto. Qed.
Lemma put_nth : forall {A} k (x : A) l j d, k < length l -> nth j (put k x l) d = if j =? k then x else nth j l d.
Proof.
  intros A k x l. revert k. induction l; intros k j d L; cbn in L; [lia|].
  destruct k; destruct j; cbn; auto. rewrite IHl by lia. auto.
Qed.
Lemma flat_map_app_perm : forall {A B} (f g : A -> list B) l, Permutation (flat_map (fun x => f x ++ g x) l) (flat_map f l ++ flat_map g l).
Proof.
  induction l; cbn; auto. rewrite <- !app_assoc. apply Permutation_app_head.
  rewrite IHl. rewrite !app_assoc. apply Permutation_app_tail. apply Permutation_app_comm.
Qed.
Lemma basic_eqb_refl : forall b, basic_eqb b b = true. Proof. destruct b; auto. Qed.
Lemma basic_eqb_eq : forall a b, basic_eqb a b = true -> a = b. Proof. destruct a, b; cbn; congruence. Qed.
Lemma nth_map_or : forall {A B} (f : option A -> option B) l j, f None = None -> nth j (map f l) None = f (nth j l None).
Proof. intros A B f l. induction l; intros [|j] E; cbn; auto. Qed.
Lemma nth_repeat_none : forall {A} n j, nth j (repeat (@None A) n) None = None.
Proof. induction n; intros [|j]; cbn; auto. Qed.
Lemma list_prefix : forall {A} (acc l : list (option A)), length l <= length acc -> (forall j, j < length l -> nth j acc None = nth j l None) ->
  acc = l ++ skipn (length l) acc.
Proof.
  intros A acc l. revert acc. induction l; intros acc L H; cbn; auto. destruct acc; cbn in L; [lia|].
  f_equal. - apply (H 0). cbn; lia. - apply IHl; [lia|]. intros j J. apply (H (S j)). cbn; lia.
Qed.

Section Proofs.
Variables (V : Type) (zero : basic -> V) (conv : basic -> basic -> V -> V) (W : nat) (mem_count : nat -> nat) (value : nat -> val V).
Notation ev e := (effects V (IExpr e)).
Notation eval := (eval V value).
Notation xval := (expr_value V value).

Lemma eval_eq : forall e tr, eval e tr = (xval e, tr ++ ev e).
Proof. intros e tr. unfold InitModel.eval, expr_value. cbn. destruct (e_const e); cbn; auto. rewrite app_nil_r. auto. Qed.

(** The expressions, their types and values. *)
Variable es : list (expr V).
Variable ps : list (basic * V).
Hypothesis typed : Forall2 (fun e p => e_ty e = TB false (fst p) /\ xval e = VB (snd p)) es ps.
Variable b : basic.
Definition U (j : nat) : option V := nth j (map (fun p => Some (snd p)) ps) None.
Definition T (j : nat) : option V := nth j (map (fun p => Some (conv (fst p) b (snd p))) ps) None.
Definition good (bt : basic) (g : list (nat * expr V)) : Prop :=
  forall k e, In (k, e) g -> k < length ps /\ nth_error es k = Some e /\ e_ty e = TB false bt /\ scalar V (xval e) = U k /\ option_map (conv bt b) (U k) = T k.

Lemma at_pos : forall k e, nth_error es k = Some e ->
  exists bt, e_ty e = TB false bt /\ k < length ps /\ scalar V (xval e) = U k /\ option_map (conv bt b) (U k) = T k.
Proof.
  unfold U, T. clear -typed. induction typed as [|e p es ps (A & B) F IH]; intros k x E; [destruct k; discriminate|].
  destruct k; cbn in E.
  - injection E as <-. exists (fst p). cbn. rewrite B. cbn. repeat split; auto. lia.
  - destruct (IH F _ _ E) as (bt & C & D & F1 & F2). exists bt. cbn. repeat split; auto. lia.
Qed.

Lemma insert_all_ok : forall g acc tr,
  (forall k e, In (k, e) g -> k < length acc /\ scalar V (xval e) = U k) ->
  exists acc', insert_all V value g acc tr = (acc', tr ++ flat_map (fun p => ev (snd p)) g) /\ length acc' = length acc /\
    forall j, nth j acc' None = if existsb (Nat.eqb j) (map fst g) then U j else nth j acc None.
Proof.
  induction g as [|(k, e) g IH]; intros acc tr H.
  - exists acc. cbn. rewrite app_nil_r. auto.
  - cbn [insert_all]. rewrite eval_eq. destruct (H k e (or_introl eq_refl)) as (L & S).
    destruct (IH (put k (scalar V (xval e)) acc) (tr ++ ev e)) as (acc' & E & L' & N).
    { intros k' e' I'. rewrite put_length. apply H. right. auto. }
    rewrite E. exists acc'. split; [cbn [flat_map snd]; rewrite app_assoc; auto|]. rewrite put_length in L'. split; auto.
    intros j. rewrite N. cbn [map fst existsb]. rewrite put_nth by auto. destruct (existsb (Nat.eqb j) (map fst g)); [rewrite orb_true_r; auto|].
    rewrite orb_false_r. destruct (Nat.eqb_spec j k); subst; auto.
Qed.
Lemma merge_ok : forall a r k ps', length a = length r ->
  length (merge V k ps' a r) = length r /\
  forall j, nth j (merge V k ps' a r) None = if existsb (Nat.eqb (k + j)) ps' then nth j a None else nth j r None.
Proof.
  induction a as [|x a IH]; intros [|y r] k ps' L; cbn in L; try discriminate.
  - split; auto. intros j. cbn. destruct j; destruct (existsb _ _); auto.
  - cbn [merge]. destruct (IH r (S k) ps') as (L' & N); [lia|]. split; [cbn; lia|].
    intros [|j]; cbn [nth].
    + rewrite Nat.add_0_r. auto.
    + rewrite N. replace (S k + j) with (k + S j) by lia. auto.
Qed.

Lemma one_type_ok : forall nt bt g acc tr, good bt g -> length ps <= length acc -> (length g = 1 -> bt = b) ->
  exists acc', one_type V conv value b nt bt g acc tr = inl (acc', tr ++ flat_map (fun p => ev (snd p)) g) /\ length acc' = length acc /\
    forall j, nth j acc' None = if existsb (Nat.eqb j) (map fst g) then T j else if (1 <? length g) && negb (1 <? nt) then None else nth j acc None.
Proof.
  intros nt bt g acc tr G L S.
  assert (Un : forallb (fun p => uniform_e V (snd p)) g = true).
  { apply forallb_forall. intros (k, e) I0. destruct (G k e I0) as (_ & _ & E & _). unfold uniform_e. cbn. rewrite E. auto. }
  destruct g as [|(k, e) g].
  - exists acc. cbn. rewrite app_nil_r. auto.
  - destruct g as [|q g].
    + specialize (S eq_refl). subst bt. cbn [one_type]. rewrite basic_eqb_refl, eval_eq.
      cbn in Un. rewrite andb_true_r in Un. unfold one_type. rewrite Un. destruct (G k e (or_introl eq_refl)) as (K & _ & _ & Sv & Tv).
      rewrite Sv, Tv. eexists. split; [cbn; rewrite app_nil_r; reflexivity|]. rewrite put_length. split; auto.
      intros j. rewrite put_nth by lia. cbn. rewrite orb_false_r. destruct (Nat.eqb_spec j k); subst; auto.
    + remember ((k, e) :: q :: g) as G0 eqn:EG. assert (L2 : 1 <? length G0 = true) by (subst; reflexivity). rewrite L2.
      assert (O1 : one_type V conv value b nt bt G0 acc tr =
        let (vec, tr1) := insert_all V value G0 (repeat None (length acc)) tr in
        let vec := map (option_map (conv bt b)) vec in
        inl (if 1 <? nt then merge V 0 (map fst G0) vec acc else vec, tr1)).
      { rewrite EG at 1. unfold one_type. destruct q. rewrite <- EG. rewrite Un. auto. }
      rewrite O1. clear O1 EG.
      destruct (insert_all_ok G0 (repeat None (length acc)) tr) as (vec & E & LV & NV).
      { intros k' e' I'. rewrite repeat_length. destruct (G k' e' I') as (A & _ & _ & B & _). split; auto. lia. }
      rewrite E. rewrite repeat_length in LV.
      assert (N2 : forall j, nth j (map (option_map (conv bt b)) vec) None = if existsb (Nat.eqb j) (map fst G0) then T j else None).
      { intros j. rewrite nth_map_or by auto. rewrite NV, nth_repeat_none. destruct (existsb (Nat.eqb j) (map fst G0)) eqn:X; auto.
        apply existsb_exists in X. destruct X as (y & I' & Y). apply Nat.eqb_eq in Y. subst y.
        apply in_map_iff in I'. destruct I' as ((k', e') & Z & I'). cbn in Z. subst k'. apply (G j e' I'). }
      destruct (1 <? nt); cbn [negb andb].
      * destruct (merge_ok (map (option_map (conv bt b)) vec) acc 0 (map fst G0)) as (LM & NM); [rewrite map_length; lia|].
        eexists. split; [reflexivity|]. split; [lia|]. intros j. rewrite NM. cbn [Nat.add]. rewrite N2.
        destruct (existsb (Nat.eqb j) (map fst G0)); auto.
      * eexists. split; [reflexivity|]. rewrite map_length. split; auto.
Qed.

Definition covered (gs : list (basic * list (nat * expr V))) (j : nat) : bool :=
  existsb (fun gg => existsb (Nat.eqb j) (map fst (snd gg))) gs.
Lemma all_types_ok : forall nt gs acc tr, (1 < nt \/ length gs <= 1) ->
  (forall bt g, In (bt, g) gs -> good bt g /\ (length g = 1 -> bt = b)) -> length ps <= length acc ->
  exists acc', all_types V conv value b nt gs acc tr = inl (acc', tr ++ flat_map (fun gg => flat_map (fun p => ev (snd p)) (snd gg)) gs) /\
    length acc' = length acc /\ forall j, covered gs j = true -> nth j acc' None = T j.
Proof.
  intros nt gs. induction gs as [|(bt, g) gs IH]; intros acc tr N G L.
  - exists acc. cbn. rewrite app_nil_r. split; auto. split; auto. discriminate.
  - cbn [all_types]. destruct (G bt g (or_introl eq_refl)) as (Gg & Gs).
    destruct (one_type_ok nt bt g acc tr Gg L Gs) as (acc1 & E1 & L1 & N1). rewrite E1.
    destruct N as [N|N].
    + assert (X : forall acc1, length acc1 = length acc -> exists acc', all_types V conv value b nt gs acc1 (tr ++ flat_map (fun p => ev (snd p)) g) =
        inl (acc', (tr ++ flat_map (fun p => ev (snd p)) g) ++ flat_map (fun gg => flat_map (fun p => ev (snd p)) (snd gg)) gs) /\
        length acc' = length acc /\ forall j, nth j acc' None = if covered gs j then T j else nth j acc1 None).
      { clear acc1 E1 L1 N1 IH. assert (GG : forall bt g, In (bt, g) gs -> good bt g /\ (length g = 1 -> bt = b)) by (intros; apply G; right; auto).
        generalize (tr ++ flat_map (fun p => ev (snd p)) g). clear G Gg Gs tr g bt.
        induction gs as [|(bt, g) gs IH]; intros tr acc1 LA.
        - exists acc1. cbn. rewrite app_nil_r. auto.
        - destruct (GG bt g (or_introl eq_refl)) as (Gg & Gs). cbn [all_types].
          destruct (one_type_ok nt bt g acc1 tr Gg ltac:(lia) Gs) as (acc2 & E2 & L2 & N2). rewrite E2.
          destruct (IH ltac:(intros; apply GG; right; auto) (tr ++ flat_map (fun p => ev (snd p)) g) acc2 ltac:(lia)) as (acc3 & E3 & L3 & N3).
          rewrite E3. exists acc3. cbn [flat_map snd]. rewrite <- !app_assoc. split; auto. split; auto.
          intros j. rewrite N3, N2. cbn [covered existsb snd]. fold (covered gs j).
          replace (1 <? nt) with true by (symmetry; apply Nat.ltb_lt; lia). rewrite andb_false_r.
          destruct (covered gs j); [rewrite orb_true_r; auto|]. rewrite orb_false_r. auto. }
      destruct (X acc1 L1) as (acc' & E & L' & N'). rewrite E. exists acc'. cbn [flat_map snd]. rewrite <- app_assoc. split; auto. split; auto.
      intros j C. rewrite N', N1. cbn [covered existsb snd] in C. fold (covered gs j) in C. destruct (covered gs j); auto.
      rewrite orb_false_r in C. rewrite C. auto.
    + destruct gs; [|cbn in N; lia]. exists acc1. cbn. rewrite app_nil_r. split; auto. split; auto.
      intros j C. cbn in C. rewrite orb_false_r in C. rewrite N1, C. auto.
Qed.

(** ** The groups *)
Lemma of_type_in : forall bt l k j e, In (j, e) (of_type V bt k (map IExpr l)) <->
  k <= j /\ nth_error l (j - k) = Some e /\ exists vy, e_ty e = TB vy bt.
Proof.
  intros bt l. induction l as [|x l IH]; intros k j e; cbn [of_type map].
  - split; [intros []|]. intros (_ & E & _). destruct (j - k); discriminate.
  - rewrite in_app_iff, IH. split.
    + intros [H|(A & B & C)].
      * destruct (basic_of (e_ty x)) as [(vy, b')|] eqn:X; [|destruct H]. destruct (basic_eqb bt b') eqn:Y; [|destruct H].
        destruct H as [H|[]]. injection H as <- <-. apply basic_eqb_eq in Y. subst. rewrite Nat.sub_diag.
        split; auto. split; auto. exists vy. destruct (e_ty x); cbn in X; congruence.
      * split; [lia|]. split; auto. replace (j - k) with (S (j - S k)) by lia. auto.
    + intros (A & B & C). destruct (Nat.eq_dec j k) as [->|NE].
      * left. rewrite Nat.sub_diag in B. cbn in B. injection B as ->. destruct C as (vy & ->). cbn. rewrite basic_eqb_refl. left. auto.
      * right. split; [lia|]. split; auto. replace (j - k) with (S (j - S k)) in B by lia. auto.
Qed.
Lemma groups_in : forall bt g, In (bt, g) (groups V (map IExpr es)) -> g = of_type V bt 0 (map IExpr es).
Proof.
  intros bt g H. unfold groups in H. apply filter_In in H. destruct H as (H & _). apply in_map_iff in H. destruct H as (x & E & _). congruence.
Qed.
Lemma groups_good : forall bt g, In (bt, g) (groups V (map IExpr es)) -> good bt g.
Proof.
  intros bt g H k e I0. rewrite (groups_in _ _ H) in I0. apply of_type_in in I0. destruct I0 as (_ & E & vy & Y). rewrite Nat.sub_0_r in E.
  destruct (at_pos k e E) as (bt' & A & B & C & D). assert (bt' = bt) as -> by congruence. auto.
Qed.
Lemma all_basics : forall bt, In bt basics.
Proof. destruct bt; cbn; tauto. Qed.
Lemma groups_cover : forall j, j < length es -> covered (groups V (map IExpr es)) j = true.
Proof.
  intros j L. destruct (nth_error es j) as [e|] eqn:E; [|apply nth_error_None in E; lia].
  destruct (at_pos j e E) as (bt & A & _).
  assert (I1 : In (j, e) (of_type V bt 0 (map IExpr es))).
  { apply of_type_in. rewrite Nat.sub_0_r. split; [lia|]. eauto. }
  apply existsb_exists. exists (bt, of_type V bt 0 (map IExpr es)). split.
  - unfold groups. apply filter_In. split.
    + apply in_map_iff. exists bt. split; auto. apply all_basics.
    + cbn. destruct (of_type V bt 0 (map IExpr es)); [destruct I1|auto].
  - apply existsb_exists. exists j. split; [|apply Nat.eqb_refl]. cbn. apply in_map_iff. exists (j, e). auto.
Qed.
Lemma groups_effects : Permutation (flat_map (fun gg => flat_map (fun p => ev (snd p)) (snd gg)) (groups V (map IExpr es))) (flat_map (effects V) (map IExpr es)).
Proof.
  assert (E1 : forall L, flat_map (fun gg : basic * list (nat * expr V) => flat_map (fun p => ev (snd p)) (snd gg))
      (filter (fun p => negb (length (snd p) =? 0)) (map (fun bt => (bt, of_type V bt 0 (map IExpr es))) L)) =
      flat_map (fun bt => flat_map (fun p => ev (snd p)) (of_type V bt 0 (map IExpr es))) L).
  { induction L as [|x L IH]; cbn [map filter flat_map]; auto. cbn [snd]. destruct (of_type V x 0 (map IExpr es)) eqn:X; cbn [length Nat.eqb negb flat_map snd].
    - rewrite IH. auto. - rewrite IH. auto. }
  unfold groups. rewrite E1. clear E1. generalize 0 as k. clear b.
  assert (TY : forall e, In e es -> exists bt, e_ty e = TB false bt).
  { clear -typed. induction typed as [|e p l l' (A & _) F IH]; [intros x []|]. intros x [<-|I0]; [eauto|]. apply IH; auto. }
  clear typed. induction es as [|e l IH]; intros k.
  - cbn. auto.
  - assert (R : flat_map (effects V) (map IExpr (e :: l)) = ev e ++ flat_map (effects V) (map IExpr l)) by reflexivity. rewrite R.
    rewrite <- (IH (fun x I0 => TY x (or_intror I0)) (S k)). destruct (TY e (or_introl eq_refl)) as (bt & Y).
    assert (FE : forall L, flat_map (fun x : basic => flat_map (fun p : nat * expr V => ev (snd p)) (of_type V x k (map IExpr (e :: l)))) L =
       flat_map (fun x => flat_map (fun p : nat * expr V => ev (snd p)) (if basic_eqb x bt then [(k, e)] else []) ++ flat_map (fun p : nat * expr V => ev (snd p)) (of_type V x (S k) (map IExpr l))) L).
    { intros L. induction L as [|x L HL]; [reflexivity|]. cbn [flat_map]. rewrite HL. cbn [of_type map]. rewrite Y. cbn [basic_of]. rewrite flat_map_app. reflexivity. }
    rewrite FE.
    rewrite flat_map_app_perm. apply Permutation_app_tail. apply Permutation_refl'.
    destruct bt; cbn; destruct (e_const e); reflexivity.
Qed.

Lemma vector_ok : forall n tr, length es = n -> n <= mem_count n -> b <> BBool ->
  (forall k e b', nth_error es k = Some e -> has_basic V b' e -> b' <> b -> exists j e', j <> k /\ nth_error es j = Some e' /\ has_basic V b' e') ->
  exists rest tr', vector_init V conv mem_count value n b (map IExpr es) tr =
      OK (ML (map (fun p => Some (conv (fst p) b (snd p))) ps ++ rest), tr ++ tr') /\
    Permutation tr' (flat_map (effects V) (map IExpr es)).
Proof.
  intros n tr L M NB S. pose proof (F2_len _ _ _ typed) as LP. unfold vector_init.
  destruct (all_types_ok (length (groups V (map IExpr es))) (groups V (map IExpr es)) (repeat None (mem_count n)) tr) as (acc & E & LA & N).
  - lia.
  - intros bt g H. split; [apply groups_good; auto|]. intros L1. rewrite (groups_in _ _ H) in L1.
    destruct (of_type V bt 0 (map IExpr es)) as [|(k, e) [|]] eqn:O1; try discriminate.
    assert (I1 : In (k, e) (of_type V bt 0 (map IExpr es))) by (rewrite O1; left; auto).
    apply of_type_in in I1. destruct I1 as (_ & E & vy & Y). rewrite Nat.sub_0_r in E.
    destruct (basic_eqb bt b) eqn:EB; [apply basic_eqb_eq; auto|]. exfalso.
    destruct (S k e bt E (ex_intro _ vy Y)) as (j & e' & NE & E' & vy' & Y'); [intros ->; rewrite basic_eqb_refl in EB; discriminate|].
    assert (I2 : In (j, e') (of_type V bt 0 (map IExpr es))) by (apply of_type_in; rewrite Nat.sub_0_r; split; [lia|]; eauto).
    rewrite O1 in I2. destruct I2 as [I2|[]]. congruence.
  - rewrite repeat_length. lia.
  - rewrite E. replace (basic_eqb b BBool) with false by (destruct b; auto; congruence).
    exists (skipn (length ps) acc). eexists. split; [|apply groups_effects]. do 3 f_equal.
    rewrite repeat_length in LA.
    pose proof (list_prefix acc (map (fun p => Some (conv (fst p) b (snd p))) ps)) as Q. rewrite map_length in Q. apply Q; [lia|].
    intros j J. apply N. apply groups_cover. lia.
Qed.
End Proofs.
