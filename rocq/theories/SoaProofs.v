(** Proofs about arrays of SOA structures: layout. *)
From Coq Require Import ZArith List Bool Lia.
From Verif Require Import Bits SoaModel SoaSpec.
Import ListNotations.
Open Scope Z_scope.

Fixpoint sty_induction (P : sty -> Prop) (HB : forall s a, P (SBasic s a))
  (HA : forall n e, P e -> P (SArr n e)) (HS : forall fs, Forall P fs -> P (SStruct fs)) (t : sty) : P t :=
  match t with
  | SBasic s a => HB s a
  | SArr n e => HA n e (sty_induction P HB HA HS e)
  | SStruct fs =>
      HS fs ((fix all (fs : list sty) : Forall P fs :=
                match fs with
                | [] => Forall_nil P
                | f :: r => Forall_cons f (sty_induction P HB HA HS f) (all r)
                end) fs)
  end.

Lemma declared_llvm w t : declared w t = llvm_type w t.
Proof.
  induction t as [s a|n e IH|fs IH] using sty_induction; cbn [declared llvm_type]; [easy|now rewrite IH|].
  apply f_equal. induction IH as [|f r Hf _ IHr]; cbn [map]; [easy|now rewrite Hf, IHr].
Qed.

Lemma align_up_ge x a : 0 < a -> x <= align_up x a.
Proof. intros H. unfold align_up. nia. Qed.

Lemma align_up_mod x a : 0 < a -> align_up x a mod a = 0.
Proof. intros H. unfold align_up. apply Z.mod_mul. lia. Qed.

Lemma struct_align_pos fs : 0 < fold_right (fun f m => Z.max (alignof f) m) 1 fs.
Proof. induction fs; cbn; lia. Qed.

Lemma alignof_pos t : type_ok t = true -> 0 < alignof t.
Proof.
  induction t as [s a|n e IH|fs IH] using sty_induction; cbn [type_ok alignof]; intros H.
  - apply andb_prop in H as [H _]; apply andb_prop in H as [H _]. now apply Z.ltb_lt in H.
  - auto.
  - apply struct_align_pos.
Qed.

Lemma llvm_type_ok w t : type_ok t = true -> type_ok (llvm_type w t) = true.
Proof.
  induction t as [s a|n e IH|fs IH] using sty_induction; cbn [type_ok llvm_type]; auto.
  intros H. rewrite forallb_forall in *. intros x Hx. apply in_map_iff in Hx as (f & <- & Hf).
  rewrite Forall_forall in IH. auto.
Qed.

Lemma fields_end_ge fs : Forall (fun f => 0 <= sizeof f) fs -> forallb type_ok fs = true ->
  forall o, o <= fields_end sizeof o fs.
Proof.
  induction fs as [|f r IH]; cbn; intros Hs Hok o; [lia|].
  inversion Hs; subst. apply andb_prop in Hok as [H1' H2'].
  specialize (IH H2 H2' (align_up o (alignof f) + sizeof f)).
  pose proof (align_up_ge o (alignof f) (alignof_pos f H1')). lia.
Qed.

Lemma sizeof_nonneg t : type_ok t = true -> 0 <= sizeof t.
Proof.
  induction t as [s a|n e IH|fs IH] using sty_induction; cbn [type_ok sizeof]; intros H.
  - apply andb_prop in H as [H _]; apply andb_prop in H as [_ H]. apply Z.ltb_lt in H. lia.
  - specialize (IH H). nia.
  - assert (Hs : Forall (fun f => 0 <= sizeof f) fs).
    { rewrite Forall_forall in *. rewrite forallb_forall in H. auto. }
    pose proof (fields_end_ge fs Hs H 0).
    pose proof (align_up_ge (fields_end sizeof 0 fs) _ (struct_align_pos fs)). cbn [alignof]. lia.
Qed.

Lemma all_sizes fs : forallb type_ok fs = true -> Forall (fun f => 0 <= sizeof f) fs.
Proof. intros H. rewrite Forall_forall. rewrite forallb_forall in H. intros; apply sizeof_nonneg; auto. Qed.

Lemma field_bounds fs : forallb type_ok fs = true -> forall k o f, nth_error fs k = Some f ->
  o <= field_off_from o fs k /\ field_off_from o fs k + sizeof f <= fields_end sizeof o fs.
Proof.
  induction fs as [|g r IH]; intros Hok k o f E; [now destruct k|].
  cbn in Hok. apply andb_prop in Hok as [Hg Hr].
  pose proof (align_up_ge o (alignof g) (alignof_pos g Hg)). pose proof (sizeof_nonneg g Hg).
  destruct k; cbn in *.
  - injection E as <-.
    pose proof (fields_end_ge r (all_sizes r Hr) Hr (align_up o (alignof g) + sizeof g)). lia.
  - specialize (IH Hr k (align_up o (alignof g) + sizeof g) f E). lia.
Qed.

Lemma field_order fs : forallb type_ok fs = true -> forall k k' o f f', (k < k')%nat ->
  nth_error fs k = Some f -> nth_error fs k' = Some f' ->
  field_off_from o fs k + sizeof f <= field_off_from o fs k'.
Proof.
  induction fs as [|g r IH]; intros Hok k k' o f f' Hk E E'; [now destruct k|].
  cbn in Hok. apply andb_prop in Hok as [Hg Hr].
  destruct k' as [|k']; [lia|]. destruct k as [|k]; cbn in *.
  - injection E as <-. pose proof (field_bounds r Hr k' (align_up o (alignof g) + sizeof g) f' E'). lia.
  - apply IH with f'; auto; lia.
Qed.

Lemma field_in_struct fs k f : forallb type_ok fs = true -> nth_error fs k = Some f ->
  0 <= field_off fs k /\ field_off fs k + sizeof f <= sizeof (SStruct fs).
Proof.
  intros Hok E. pose proof (field_bounds fs Hok k 0 f E). unfold field_off.
  pose proof (align_up_ge (fields_end sizeof 0 fs) _ (struct_align_pos fs)). cbn [sizeof alignof]. lia.
Qed.

Lemma nth_ok fs k f : forallb type_ok fs = true -> nth_error fs k = Some f -> type_ok f = true.
Proof. intros H E. rewrite forallb_forall in H. apply H. now apply nth_error_In with k. Qed.

Lemma type_at_ok t p u : type_ok t = true -> type_at t p = Some u -> type_ok u = true.
Proof.
  revert t. induction p as [|[i|k] p IH]; cbn; intros t Hok E.
  - now injection E as <-.
  - destruct t; try discriminate. destruct (_ && _); [|discriminate]. now apply (IH t).
  - destruct t; try discriminate. destruct (nth_error fields k) eqn:Ek; [|discriminate].
    apply (IH s); auto. now apply nth_ok with fields k.
Qed.

(** A part lies within the whole. *)
Lemma place_bounds t p u : type_ok t = true -> type_at t p = Some u ->
  0 <= place t p /\ place t p + sizeof u <= sizeof t.
Proof.
  revert t. induction p as [|[i|k] p IH]; cbn [type_at place]; intros t Hok E.
  - injection E as <-. lia.
  - destruct t as [|n e|]; try discriminate. destruct (_ && _) eqn:Ei; [|discriminate].
    apply andb_prop in Ei as [H1 H2]. apply Z.leb_le in H1. apply Z.ltb_lt in H2.
    cbn [type_ok] in Hok. specialize (IH e Hok E). cbn [sizeof].
    pose proof (sizeof_nonneg e Hok). nia.
  - destruct t as [| |fs]; try discriminate. destruct (nth_error fs k) eqn:Ek; [|discriminate].
    cbn [type_ok] in Hok. specialize (IH s (nth_ok fs k s Hok Ek) E).
    pose proof (field_in_struct fs k s Hok Ek). lia.
Qed.

(** Different parts of basic types do not overlap. *)
Lemma places_disjoint t p q s a s' a' : type_ok t = true ->
  type_at t p = Some (SBasic s a) -> type_at t q = Some (SBasic s' a') -> p <> q ->
  place t p + s <= place t q \/ place t q + s' <= place t p.
Proof.
  revert t q. induction p as [|x p IH]; intros t q Hok Ep Eq Hne.
  - cbn in Ep. injection Ep as ->. destruct q as [|y q]; [easy|]. destruct y; cbn in Eq; discriminate.
  - destruct q as [|y q].
    { cbn in Eq. injection Eq as ->. destruct x; cbn in Ep; discriminate. }
    destruct x as [i|k], y as [j|l]; cbn [type_at place] in *; destruct t as [|n e|fs]; try discriminate.
    + cbn [type_ok] in Hok.
      destruct ((0 <=? i) && _) eqn:Ei; [|discriminate]. destruct ((0 <=? j) && _) eqn:Ej; [|discriminate].
      pose proof (place_bounds e p _ Hok Ep) as Bp. pose proof (place_bounds e q _ Hok Eq) as Bq.
      cbn [sizeof] in Bp, Bq. pose proof (sizeof_nonneg e Hok) as Se.
      destruct (Z.lt_trichotomy i j) as [H|[->|H]].
      * left. pose proof (Z.mul_le_mono_nonneg_r (i + 1) j _ Se ltac:(lia)). lia.
      * assert (p <> q) by congruence. specialize (IH e q Hok Ep Eq H). lia.
      * right. pose proof (Z.mul_le_mono_nonneg_r (j + 1) i _ Se ltac:(lia)). lia.
    + cbn [type_ok] in Hok.
      destruct (nth_error fs k) as [f|] eqn:Ek; [|discriminate].
      destruct (nth_error fs l) as [g|] eqn:El; [|discriminate].
      pose proof (place_bounds f p _ (nth_ok fs k f Hok Ek) Ep) as Bp.
      pose proof (place_bounds g q _ (nth_ok fs l g Hok El) Eq) as Bq. cbn [sizeof] in Bp, Bq.
      unfold field_off. destruct (lt_eq_lt_dec k l) as [[H|H]|H].
      * left. pose proof (field_order fs Hok k l 0 f g H Ek El). lia.
      * subst l. assert (f = g) by congruence. subst g. assert (p <> q) by congruence.
        specialize (IH f q (nth_ok fs k f Hok Ek) Ep Eq H). lia.
      * right. pose proof (field_order fs Hok l k 0 g f H El Ek). lia.
Qed.

(** Parts of parts. *)
Lemma type_at_app t p q : type_at t (p ++ q) = match type_at t p with Some u => type_at u q | None => None end.
Proof.
  revert t. induction p as [|[i|k] p IH]; cbn; intros t; [easy| |]; destruct t; auto.
  - destruct (_ && _); auto.
  - destruct (nth_error fields k); auto.
Qed.

Lemma place_app t p q u : type_at t p = Some u -> place t (p ++ q) = place t p + place u q.
Proof.
  revert t. induction p as [|[i|k] p IH]; cbn [type_at place app]; intros t E.
  - injection E as <-. lia.
  - destruct t; try discriminate. destruct (_ && _); [|discriminate]. rewrite (IH t E). lia.
  - destruct t; try discriminate. destruct (nth_error fields k) eqn:Ek; [|discriminate].
    rewrite (IH s E). lia.
Qed.

Lemma type_at_llvm w t p u : type_at t p = Some u -> type_at (llvm_type w t) p = Some (llvm_type w u).
Proof.
  revert t. induction p as [|[i|k] p IH]; cbn [type_at]; intros t E.
  - now injection E as <-.
  - destruct t as [|n e|]; try discriminate. cbn [llvm_type].
    destruct (_ && _); [|discriminate]. auto.
  - destruct t as [| |fs]; try discriminate. cbn [llvm_type]. destruct (nth_error fs k) eqn:Ek; [|discriminate].
    rewrite (map_nth_error (llvm_type w) k fs Ek). auto.
Qed.
