(** Simplification of masked operations (C36). *)

From Coq Require Import ZArith List Bool Lia.
From Verif Require Import Bits MaskModel MaskSpec MaskProofs.
Import ListNotations.
Open Scope Z_scope.

(** ** Masks of at most the width of the target *)

(** A select that is replaced by one of its operands has that value, for some
    choice of the undef elements of the mask; if there are none, for the mask. *)
Theorem C36_select_partial {A} (vw : nat) (m : mask) (before : nat -> bool) (a b : nat -> A) :
  (lanes m <= vw)%nat ->
  exists pick,
    selected (lanes m) (mask_after (simplify vw m) (on before m)) a b =
    selected (lanes m) (on pick m) a b /\
    (known m -> selected (lanes m) (on pick m) a b = selected (lanes m) (on before m) a b).
Proof.
  intro L. destruct (simplify_ok vw m before L) as [pick H]. exists pick.
  split; [apply selected_ext, H|]. intro K. apply selected_ext. intros i Hi.
  rewrite <- (H i Hi). apply simplify_known; assumption.
Qed.

(** The same for a masked store, which is dropped or becomes a plain one. *)
Theorem C36_store_partial (vw : nat) (m : mask) (before : nat -> bool) (mem : memory) (p : Z) (v : nat -> Z) :
  (lanes m <= vw)%nat ->
  let new := mask_after (simplify vw m) (on before m) in
  exists pick,
    (forall x, stored (lanes m) new mem p v x = stored (lanes m) (on pick m) mem p v x) /\
    accessed (lanes m) new p = accessed (lanes m) (on pick m) p /\
    (known m -> forall x, stored (lanes m) new mem p v x = stored (lanes m) (on before m) mem p v x).
Proof.
  intros L new. destruct (simplify_ok vw m before L) as [pick H]. exists pick.
  split; [apply stored_ext, H|]. split; [apply accessed_ext, H|].
  intros K x. apply stored_ext. intros i Hi. apply simplify_known; assumption.
Qed.

(** And for a masked load, whatever the lanes that are off get. *)
Theorem C36_load_partial (vw : nat) (m : mask) (before : nat -> bool) (mem : memory) (p : Z) (off : nat -> option Z) :
  (lanes m <= vw)%nat ->
  let new := mask_after (simplify vw m) (on before m) in
  exists pick,
    loaded (lanes m) new mem p off = loaded (lanes m) (on pick m) mem p off /\
    accessed (lanes m) new p = accessed (lanes m) (on pick m) p /\
    (known m -> loaded (lanes m) new mem p off = loaded (lanes m) (on before m) mem p off).
Proof.
  intros L new. destruct (simplify_ok vw m before L) as [pick H]. exists pick.
  split; [apply selected_ext, H|]. split; [apply accessed_ext, H|].
  intros K. apply selected_ext. intros i Hi. apply simplify_known; assumption.
Qed.

(** Blends: also when the operands are the same, or one of them is undef
    ([None]) and takes the value of the other. *)
Theorem C36_blend_partial (vw : nat) (m : mask) (before : nat -> bool) (a b : nat -> option Z) (same u0 u1 : bool) :
  (lanes m <= vw)%nat ->
  (same = true -> forall i, a i = b i) ->
  (u0 = true -> forall i, a i = None) -> (u1 = true -> forall i, b i = None) ->
  simplify_blend vw same u0 u1 m <> Keep ->
  exists pick,
    Forall2 (fun new old => old = None \/ new = old)
      (selected (lanes m) (mask_after (simplify_blend vw same u0 u1 m) all_off) b a)
      (selected (lanes m) (on pick m) b a).
Proof.
  intros L Hs H0 H1 Nk.
  assert (G : forall p q : nat -> bool, (forall i, (i < lanes m)%nat -> (if q i then b i else a i) = None \/
                (if p i then b i else a i) = (if q i then b i else a i)) ->
              Forall2 (fun new old => old = None \/ new = old) (selected (lanes m) p b a) (selected (lanes m) q b a)).
  { intros p q H. unfold selected.
    assert (H' : forall i, In i (seq 0 (lanes m)) -> (if q i then b i else a i) = None \/
                (if p i then b i else a i) = (if q i then b i else a i)).
    { intros i I. apply H. apply in_seq in I. lia. }
    clear H. induction (seq 0 (lanes m)) as [|i l IH]; cbn; constructor.
    - apply H'. left. reflexivity.
    - apply IH. intros j J. apply H'. right. exact J. }
  unfold simplify_blend in *. destruct same; [|destruct u0; [|destruct u1]].
  - exists before. apply G. intros i _. right. cbn. rewrite (Hs eq_refl i). destruct (on before m i); reflexivity.
  - exists before. apply G. intros i _. cbn. destruct (on before m i); [right; reflexivity|left; apply H0; reflexivity].
  - exists before. apply G. intros i _. cbn. destruct (on before m i); [left; apply H1; reflexivity|right; reflexivity].
  - destruct (simplify_ok vw m before L) as [pick H]. exists pick. apply G. intros i Hi. right.
    rewrite <- (H i Hi). destruct (simplify vw m); [congruence| |]; reflexivity.
Qed.

(** movmsk of a constant: the bits are the lanes. *)
Theorem C36_movmsk (bits : Z) (m : mask) (b : Z) :
  Z.of_nat (lanes m) <= bits -> simplify_movmsk bits m = Some b ->
  exists pick, b = movmsk (lanes m) (on pick m) /\
    (known m -> forall before, b = movmsk (lanes m) (on before m)).
Proof.
  intros L E. destruct (movmsk_ok bits m b ltac:(lia) L E) as [pick H]. exists pick. split; [exact H|].
  intros K before. rewrite H. unfold movmsk. f_equal. apply map_ext_in. intros i I. apply in_seq in I.
  rewrite (on_known m pick before i K); [reflexivity|lia|].
  destruct m; try exact Logic.I. discriminate E.
Qed.

(** Every mask with at most 64 elements gets an answer: no assertion fails. *)
Theorem C36_no_crash (vw : nat) (m : mask) : (lanes m <= 64)%nat -> mask_status vw m <> Failed.
Proof.
  intros L. unfold mask_status, get_mask. destruct m as [l|n|n]; cbn [lanes] in L; try discriminate.
  - destruct (existsb is_expr l); [discriminate|].
    destruct (64 <? Z.of_nat (length l)) eqn:E; [apply Z.ltb_lt in E; lia|].
    destruct (elements_to_mask l =? 0); [discriminate|]. destruct (forallb _ _); discriminate.
Qed.

(** ** Masks whose first elements are on *)

(** A masked store replaced by a plain store of the first part stores and
    touches the same. *)
Theorem C36_prefix_store_partial (l : list melt) (k : nat) (pick : nat -> bool) (mem : memory) (p : Z) (v : nat -> Z) :
  bools l -> check_mask (MVec l) = Some k ->
  (forall x, stored k all_on mem p v x = stored (length l) (on pick (MVec l)) mem p v x) /\
  accessed k all_on p = accessed (length l) (on pick (MVec l)) p.
Proof.
  intros B E. destruct (check_mask_ok l k pick B E) as (L & _ & _ & H). split.
  - intro x. rewrite (stored_ext _ _ _ mem p v H x). symmetry. apply stored_prefix, L.
  - rewrite (accessed_ext _ _ _ p H). symmetry. apply accessed_prefix, L.
Qed.

(** A masked load replaced by a plain load of the first part, merged with the
    values for the lanes that are off. *)
Theorem C36_prefix_load_partial (l : list melt) (k : nat) (pick : nat -> bool) (mem : memory) (p : Z) (pass : list (option Z)) :
  bools l -> check_mask (MVec l) = Some k -> length pass = length l ->
  (k = 3%nat -> nth_error pass 3 = nth_error pass 0) ->
  let off := fun i => nth i pass None in
  merge (loaded k all_on mem p off) pass = loaded (length l) (on pick (MVec l)) mem p off /\
  accessed k all_on p = accessed (length l) (on pick (MVec l)) p.
Proof.
  intros B E Lp H3 off. destruct (check_mask_ok l k pick B E) as (L & [a P] & Pk & H). split.
  2:{ rewrite (accessed_ext _ _ _ p H). symmetry. apply accessed_prefix, L. }
  unfold loaded. rewrite (selected_ext _ _ _ _ _ H). unfold off.
  rewrite (selected_prefix _ k _ None pass L Lp).
  set (f := selected k all_on (fun i => mem (p + Z.of_nat i)) (fun i => nth i pass None)).
  assert (Lf : length f = k) by apply selected_length.
  destruct Pk as [->|[b Pb]].
  - rewrite (merge3_ok f pass a) by lia. f_equal. specialize (H3 eq_refl).
    destruct pass as [|x0 [|x1 [|x2 [|x3 pass]]]]; cbn [length] in Lp; try lia.
    + exfalso. destruct a as [|[|a]]; cbn [Nat.pow] in P; lia.
    + cbn in H3 |- *. injection H3 as ->. reflexivity.
  - rewrite (merge_ok f pass a b) by lia. rewrite Lf. reflexivity.
Qed.

(** ** Cases *)

Definition T1 : melt := MInt 1 1.
Definition T0 : melt := MInt 1 0.
Definition m32 (b : bool) : melt := MInt 32 (if b then 2 ^ 32 - 1 else 0).

Example C36_case_status :
  map (mask_status 4)
    [MVec [m32 true; m32 true; m32 true; m32 true]; MVec [m32 true; MUndef; MUndef; m32 true];
     MVec [m32 true; m32 false; m32 true; m32 true]; MVec [m32 false; MUndef; m32 false; m32 false];
     MZero 4; MOther 4; MVec [m32 true; MExpr; m32 true; m32 true]]
  = [AllOn; AllOn; Mixed; AllOff; AllOff; Unknown; Unknown].
Proof. reflexivity. Qed.

Example C36_case_movmsk :
  simplify_movmsk 32 (MVec [m32 true; m32 false; m32 true; m32 true]) = Some 13 /\
  movmsk 4 (on all_off (MVec [m32 true; m32 false; m32 true; m32 true])) = 13.
Proof. split; reflexivity. Qed.

Example C36_case_prefix :
  bools [T1; T1; T0; T0; T0; T0; T0; T0] /\
  check_mask (MVec [T1; T1; T0; T0; T0; T0; T0; T0]) = Some 2%nat /\
  check_mask (MVec [T1; T1; T1; T0; T0; T0; T0; T0]) = Some 3%nat /\
  check_mask (MVec [T1; T1; T0; T1]) = None /\
  merge [Some 1; Some 2] (map Some [10; 11; 12; 13; 14; 15; 16; 17]) =
    map Some [1; 2; 12; 13; 14; 15; 16; 17].
Proof.
  split; [|repeat split]. intros c H. cbn in H. unfold T0, T1 in H.
  repeat (destruct H as [<-|H]; [auto|]). destruct H.
Qed.

(** ** Where the simplifications are wrong *)

(** A select of eight elements on a target of width four: only the first four
    elements of the mask are looked at. *)
Theorem C36_wide_select_refuted :
  ~ (forall vw m before (a b : nat -> Z), known m ->
       selected (lanes m) (mask_after (simplify vw m) (on before m)) a b =
       selected (lanes m) (on before m) a b).
Proof.
  intro H.
  specialize (H 4%nat (MVec [T1; T1; T1; T1; T0; T0; T0; T0]) all_off (fun _ => 1) (fun _ => 2)).
  assert (K : known (MVec [T1; T1; T1; T1; T0; T0; T0; T0])).
  { intros c C. cbn in C. repeat (destruct C as [<-|C]; [exact Logic.I|]). destruct C. }
  specialize (H K). vm_compute in H. discriminate H.
Qed.

(** A select of more than 64 elements with a constant mask ends the compiler. *)
Theorem C36_crash_refuted : ~ (forall vw m, mask_status vw m <> Failed).
Proof. intro H. apply (H 8%nat (MVec (repeat T1 65))). vm_compute. reflexivity. Qed.

(** The AVX masked loads give zero to lanes that are off; with a mask that is
    all off they are replaced by poison ([None]). *)
Theorem C36_avx_load_refuted :
  ~ (forall vw m before mem p, known m -> (lanes m <= vw)%nat ->
       loaded (lanes m) (mask_after (simplify vw m) (on before m)) mem p (fun _ => None) =
       loaded (lanes m) (on before m) mem p (fun _ => Some 0)).
Proof.
  intro H. specialize (H 8%nat (MZero 8) all_off (fun _ => Some 1) 0 Logic.I ltac:(cbn; lia)).
  vm_compute in H. discriminate H.
Qed.

(** <1, undef, 1, 0> is taken for <1, 1, 0, 0>: a lane that is on is not stored. *)
Theorem C36_undef_prefix_refuted :
  ~ (forall l k, (forall c, In c l -> c = T0 \/ c = T1 \/ c = MUndef) -> check_mask (MVec l) = Some k ->
       exists pick, forall i, (i < length l)%nat -> on pick (MVec l) i = Nat.ltb i k).
Proof.
  intro H.
  destruct (H [T1; MUndef; T1; T0] 2%nat) as [pick X].
  - intros c C. cbn in C. repeat (destruct C as [<-|C]; [auto|]). destruct C.
  - reflexivity.
  - specialize (X 2%nat ltac:(cbn; lia)). discriminate X.
Qed.

(** With three lanes on, the value for the fourth lane is that for the first. *)
Theorem C36_prefix_load3_refuted :
  ~ (forall l k pick mem p pass,
       bools l -> check_mask (MVec l) = Some k -> length pass = length l ->
       merge (loaded k all_on mem p (fun i => nth i pass None)) pass =
       loaded (length l) (on pick (MVec l)) mem p (fun i => nth i pass None)).
Proof.
  intro H.
  specialize (H [T1; T1; T1; T0] 3%nat all_off (fun _ => Some 7) 0 (map Some [1; 2; 3; 4])).
  assert (B : bools [T1; T1; T1; T0]).
  { intros c C. cbn in C. unfold T1, T0 in C. repeat (destruct C as [<-|C]; [auto|]). destruct C. }
  specialize (H B eq_refl eq_refl). vm_compute in H. discriminate H.
Qed.

Print Assumptions C36_select_partial.
Print Assumptions C36_store_partial.
Print Assumptions C36_load_partial.
Print Assumptions C36_blend_partial.
Print Assumptions C36_movmsk.
Print Assumptions C36_no_crash.
Print Assumptions C36_prefix_store_partial.
Print Assumptions C36_prefix_load_partial.
