(** Averages are recognized. *)
From Coq Require Import ZArith List Bool Lia.
From Verif Require Import Bits SatModel LanesModel PeepModel PeepSpec PeepProofs PeepProofs2.
Import ListNotations.
Local Open Scope Z_scope.

Lemma replace_ty T e : ty_of T (replace T e) = ty_of T e.
Proof.
  unfold replace. destruct (average T e) as [r|] eqn:E; auto. apply average_inv in E.
  unfold avg_form in E. decompose [ex and or] E; subst; reflexivity.
Qed.
Lemma peephole_ty T e : ty_of T (peephole T e) = ty_of T e.
Proof. induction e; cbn [peephole]; rewrite replace_ty; cbn [ty_of]; auto. Qed.

Lemma splat_repeat c n : (0 < n)%nat -> splat (repeat c n) = Some c.
Proof.
  destruct n; [lia|]. intros _. cbn [repeat splat]. replace (forallb (Z.eqb c) (repeat c n)) with true; auto.
  symmetry. apply forallb_forall. intros x I0. apply repeat_spec in I0. subst. apply Z.eqb_refl.
Qed.
Lemma cdv_repeat c n : (0 < n)%nat -> c <> 0 -> cdv_splat (repeat c n) = Some c.
Proof. intros N C. unfold cdv_splat. rewrite splat_repeat by auto. destruct (Z.eqb_spec c 0); tauto. Qed.
Lemma ty_eqb_refl t : ty_eqb t t = true.
Proof. unfold ty_eqb. now rewrite PeanoNat.Nat.eqb_refl, Z.eqb_refl. Qed.

Lemma ext_hit T n a : ty_of T a = Vec (width T) n -> m_cast T ZExt n (2 * n) m_value (Cast ZExt (Vec (width T) (2 * n)) a) = Some a.
Proof. intros E. unfold m_cast. rewrite E, !ty_eqb_refl. reflexivity. Qed.

Lemma match_up_hit T n f a b s h : kind T = Pavg -> (n = 8 /\ f = AvgUpU8 \/ n = 16 /\ f = AvgUpU16) -> (0 < width T)%nat ->
  ty_of T a = Vec (width T) n -> ty_of T b = Vec (width T) n ->
  let x := Cast ZExt (Vec (width T) (2 * n)) a in let y := Cast ZExt (Vec (width T) (2 * n)) b in
  let k c := Cst (Vec (width T) (2 * n)) (repeat c (width T)) in
  In s [Bin Add (Bin Add x y) (k 1); Bin Add (Bin Add x (k 1)) y; Bin Add x (Bin Add y (k 1))] ->
  In h [Bin UDiv s (k 2); Bin LShr s (k 1)] ->
  average T (Cast Trunc (Vec (width T) n) h) = Some (Avg f a b).
Proof.
  intros K NF W TA TB. cbv zeta. intros S0 H0.
  assert (SO : sum_and_one (m_cast T ZExt n (2 * n) m_value) s = Some (a, b, 1)).
  { pose proof (ext_hit T n a TA) as XA. pose proof (ext_hit T n b TB) as XB. pose proof (splat_repeat 1 (width T) W) as SP.
    unfold sum_and_one, m_or, m_add. destruct S0 as [<-|[<-|[<-|[]]]]; cbn [m_apint]; rewrite ?XA, ?XB, ?SP; auto. }
  assert (ST : ty_of T s = Vec (width T) (2 * n)) by (destruct S0 as [<-|[<-|[<-|[]]]]; reflexivity).
  assert (U : match_up T m_udiv2 ZExt n f (Cast Trunc (Vec (width T) n) h) = Some (Avg f a b)).
  { unfold match_up, m_cast at 1. destruct H0 as [<-|[<-|[]]]; cbn [ty_of cast_eqb andb]; rewrite ST, !ty_eqb_refl; cbn [andb m_udiv2].
    - rewrite (cdv_repeat 2) by (auto; lia). change (isIntN 2 2) with true. cbn iota. rewrite SO. change (isIntN 1 1) with true. unfold get_intrinsic. rewrite K. destruct NF as [(_ & ->)|(_ & ->)]; reflexivity.
    - rewrite (cdv_repeat 1) by (auto; lia). change (isIntN 1 1) with true. cbn iota. rewrite SO. change (isIntN 1 1) with true. unfold get_intrinsic. rewrite K. destruct NF as [(_ & ->)|(_ & ->)]; reflexivity. }
  unfold average. destruct NF as [(-> & ->)|(-> & ->)]; rewrite U; [reflexivity|].
  replace (match_up T m_udiv2 ZExt 8 AvgUpU8 (Cast Trunc (Vec (width T) 16) h)) with (@None expr); [reflexivity|].
  unfold match_up, m_cast at 1. cbn [cast_eqb andb]. unfold ty_eqb at 1. cbn [lns bits]. rewrite PeanoNat.Nat.eqb_refl. reflexivity.
Qed.

Lemma recognized T n f a b s h : kind T = Pavg -> (n = 8 /\ f = AvgUpU8 \/ n = 16 /\ f = AvgUpU16) -> (0 < width T)%nat ->
  ty_of T a = Vec (width T) n -> ty_of T b = Vec (width T) n ->
  let x := Cast ZExt (Vec (width T) (2 * n)) a in let y := Cast ZExt (Vec (width T) (2 * n)) b in
  let k c := Cst (Vec (width T) (2 * n)) (repeat c (width T)) in
  In s [Bin Add (Bin Add x y) (k 1); Bin Add (Bin Add x (k 1)) y; Bin Add x (Bin Add y (k 1))] ->
  In h [Bin UDiv s (k 2); Bin LShr s (k 1)] ->
  peephole T (Cast Trunc (Vec (width T) n) h) = Avg f (peephole T a) (peephole T b).
Proof.
  intros K NF W TA TB. cbv zeta. intros S0 H0. cbn [peephole]. unfold replace at 1.
  rewrite (match_up_hit T n f (peephole T a) (peephole T b) (peephole T s)); auto; rewrite ?peephole_ty; auto.
  - destruct S0 as [<-|[<-|[<-|[]]]]; rewrite !peephole_bin, !peephole_zext, peephole_cst; cbn [In]; auto.
  - destruct H0 as [<-|[<-|[]]]; rewrite peephole_bin, peephole_cst; cbn [In]; auto.
Qed.
