(** Proofs for gather coalescing (C35): basic blocks. *)

From Coq Require Import ZArith List Bool Lia Sorted.
From Verif Require Import Bits CoalesceModel CoalesceSpec CoalesceProofs CoalesceProofs2 CoalesceProofs3.
Import ListNotations.
Open Scope nat_scope.

(** ** The members of a group *)

Lemma scan_ok p first : forall rest room pos,
  StronglySorted lt (scan p first room rest pos) /\
  forall q, In q (scan p first room rest pos) -> pos <= q /\ taken p q = false /\
    (exists g, nth_error rest (q - pos) = Some (Gather g) /\ same_call first g = true) /\
    forall j i, nth_error rest j = Some i -> pos + j < q -> may_write i = false.
Proof.
  induction rest as [|i r IH]; intros room pos; cbn [scan]; [split; [constructor|intros q []]|].
  destruct (may_write i) eqn:Mw; [split; [constructor|intros q []]|].
  assert (Step : forall room,
    StronglySorted lt (scan p first room r (S pos)) /\
    forall q, In q (scan p first room r (S pos)) -> S pos <= q /\ taken p q = false /\
    (exists g, nth_error (i :: r) (q - pos) = Some (Gather g) /\ same_call first g = true) /\
    forall j x, nth_error (i :: r) j = Some x -> pos + j < q -> may_write x = false).
  { intro rm. destruct (IH rm (S pos)) as [A B]. split; [exact A|]. intros q Hq.
    destruct (B q Hq) as (L & T & (g & Eg & Sg) & W). split; [exact L|]. split; [exact T|]. split.
    - exists g. split; [|exact Sg]. replace (q - pos) with (S (q - S pos)) by lia. exact Eg.
    - intros j x Ej Lj. destruct j as [|j]; cbn [nth_error] in Ej; [injection Ej as <-; exact Mw|].
      apply (W j x Ej). lia. }
  assert (Weak : forall room,
    StronglySorted lt (scan p first room r (S pos)) /\
    forall q, In q (scan p first room r (S pos)) -> pos <= q /\ taken p q = false /\
    (exists g, nth_error (i :: r) (q - pos) = Some (Gather g) /\ same_call first g = true) /\
    forall j x, nth_error (i :: r) j = Some x -> pos + j < q -> may_write x = false).
  { intro rm. destruct (Step rm) as [A B]. split; [exact A|]. intros q Hq. destruct (B q Hq) as (L & R).
    split; [lia|exact R]. }
  destruct i as [g|f|f|]; try apply Weak.
  destruct (negb (taken p pos) && same_call first g) eqn:C; [|apply Weak].
  apply andb_true_iff in C as [Ct Cs]. apply negb_true_iff in Ct.
  assert (Here : pos <= pos /\ taken p pos = false /\
    (exists g', nth_error (Gather g :: r) (pos - pos) = Some (Gather g') /\ same_call first g' = true) /\
    forall j x, nth_error (Gather g :: r) j = Some x -> pos + j < pos -> may_write x = false).
  { split; [lia|]. split; [exact Ct|]. split; [|intros; lia]. exists g. rewrite Nat.sub_diag. split; [reflexivity|exact Cs]. }
  destruct room as [|[|room]].
  - split; [constructor|intros q []].
  - split; [repeat constructor|]. intros q [<-|[]]. exact Here.
  - destruct (Step (S room)) as [A B]. split.
    + constructor; [exact A|]. apply Forall_forall. intros q Hq. destruct (B q Hq) as [L _]. lia.
    + intros q [<-|Hq]; [exact Here|]. destruct (B q Hq) as (L & R). split; [lia|exact R].
Qed.

Lemma assign_out first : forall members p k q, ~ In q members -> assign p first k members q = p q.
Proof.
  induction members as [|x r IH]; intros p k q H; [reflexivity|]. cbn [assign]. rewrite IH.
  - destruct (Nat.eqb_spec q x) as [->|]; [|reflexivity]. exfalso. apply H. left. reflexivity.
  - intro I. apply H. right. exact I.
Qed.

Lemma assign_in first : forall members p k j q, NoDup members -> nth_error members j = Some q ->
  assign p first k members q = Some (first, k + j).
Proof.
  induction members as [|x r IH]; intros p k j q Nd E; [destruct j; discriminate|].
  inversion Nd; subst. cbn [assign]. destruct j as [|j]; cbn [nth_error] in E.
  - injection E as <-. rewrite assign_out by assumption. rewrite Nat.eqb_refl, Nat.add_0_r. reflexivity.
  - rewrite (IH _ (S k) j q H2 E). f_equal. f_equal. lia.
Qed.

Lemma sorted_nodup l : StronglySorted lt l -> NoDup l.
Proof.
  induction 1 as [|x l S IH F]; constructor; [|exact IH]. intro I. rewrite Forall_forall in F.
  specialize (F x I). lia.
Qed.

(** ** The invariant of the pass *)

Section Block.
Variable block : list inst.

Definition ok (f q : nat) : Prop :=
  exists g0 g, nth_error block f = Some (Gather g0) /\ nth_error block q = Some (Gather g) /\
    same_call g0 g = true /\ f <= q /\
    forall j i, nth_error block j = Some i -> f <= j < q -> may_write i = false.

Record inv (p : plan) (pos : nat) (mem : nat -> list nat) : Prop := {
  inv_iff : forall q f k, p q = Some (f, k) <-> nth_error (mem f) k = Some q;
  inv_sorted : forall f, StronglySorted lt (mem f);
  inv_ok : forall f q, In q (mem f) -> ok f q;
  inv_new : forall f, pos <= f -> mem f = [];
  inv_four : forall f, length (mem f) <= 4
}.

Lemma same_call_refl g : same_call g g = true.
Proof. unfold same_call. rewrite !Nat.eqb_refl. reflexivity. Qed.

Lemma scan_length p first : forall rest room pos, length (scan p first room rest pos) <= room.
Proof.
  induction rest as [|i r IH]; intros room pos; cbn [scan]; [cbn; lia|].
  destruct (may_write i); [cbn; lia|]. destruct i as [g|f|f|]; try apply IH.
  destruct (negb (taken p pos) && same_call first g); [|apply IH].
  destruct room as [|[|room]]; cbn [length]; try lia. specialize (IH (S room) (S pos)). lia.
Qed.

Lemma pass_loop_ok all_on uniform : forall rest p pos mem,
  (forall j, nth_error rest j = nth_error block (pos + j)) -> inv p pos mem ->
  exists mem', inv (pass_loop all_on uniform p rest pos) (pos + length rest) mem'.
Proof.
  induction rest as [|i r IH]; intros p pos mem R J; cbn [pass_loop length].
  - rewrite Nat.add_0_r. exists mem. exact J.
  - assert (R' : forall j, nth_error r j = nth_error block (S pos + j)).
    { intro j. specialize (R (S j)). cbn [nth_error] in R. rewrite R. f_equal. lia. }
    assert (Skip : exists mem', inv (pass_loop all_on uniform p r (S pos)) (S pos + length r) mem').
    { apply (IH p (S pos) mem R'). destruct J. constructor; auto. intros f L. apply inv_new0. lia. }
    replace (pos + S (length r)) with (S pos + length r) by lia.
    destruct i as [g|f|f|]; try exact Skip.
    destruct (negb (taken p pos) && Nat.ltb (func g) 4 && all_on (mask g) && uniform (variable g)) eqn:C; [|exact Skip].
    rewrite !andb_true_iff in C. destruct C as [[[Ct _] _] _]. apply negb_true_iff in Ct.
    destruct (scan_ok p g r 3 (S pos)) as [Ss Si]. pose proof (scan_length p g r 3 (S pos)) as Sl.
    set (members := pos :: scan p g 3 r (S pos)).
    assert (Ms : StronglySorted lt members).
    { constructor; [exact Ss|]. apply Forall_forall. intros q Hq. destruct (Si q Hq). lia. }
    assert (Mt : forall q, In q members -> p q = None).
    { intros q [<-|Hq]; [|destruct (Si q Hq) as (_ & T & _)].
      - unfold taken in Ct. destruct (p pos); [discriminate|reflexivity].
      - unfold taken in T. destruct (p q); [discriminate|reflexivity]. }
    apply (IH _ (S pos) (fun f => if Nat.eqb f pos then members else mem f) R').
    destruct J as [Ji Js Jo Jn Jf]. constructor.
    + intros q f k. destruct (in_dec Nat.eq_dec q members) as [I|I].
      * destruct (In_nth_error _ _ I) as [j Ej].
        rewrite (assign_in pos members p 0 j q (sorted_nodup _ Ms) Ej). cbn [Nat.add]. split.
        -- intro H. injection H as <- <-. rewrite Nat.eqb_refl. exact Ej.
        -- destruct (Nat.eqb_spec f pos) as [->|N].
           ++ intro Ek. f_equal. f_equal.
              apply (proj1 (NoDup_nth_error members) (sorted_nodup _ Ms));
                [apply nth_error_Some; rewrite Ej; discriminate|congruence].
           ++ intro Ek. apply Ji in Ek. rewrite (Mt q I) in Ek. discriminate.
      * rewrite assign_out by exact I. rewrite Ji. destruct (Nat.eqb_spec f pos) as [->|N]; [|reflexivity].
        rewrite (Jn pos (le_n _)). split; [destruct k; discriminate|].
        intro H. exfalso. apply I. apply nth_error_In in H. exact H.
    + intro f. destruct (Nat.eqb f pos); auto.
    + intros f q. destruct (Nat.eqb_spec f pos) as [->|N]; [|apply Jo].
      assert (Ep : nth_error block pos = Some (Gather g)).
      { specialize (R 0). rewrite Nat.add_0_r in R. rewrite <- R. reflexivity. }
      intros [<-|Hq].
      * exists g, g. split; [exact Ep|]. split; [exact Ep|]. split; [apply same_call_refl|]. split; [lia|intros; lia].
      * destruct (Si q Hq) as (L & _ & (g' & Eg & Sg) & W). exists g, g'. split; [exact Ep|]. split.
        { rewrite R' in Eg. replace (S pos + (q - S pos)) with q in Eg by lia. exact Eg. }
        split; [exact Sg|]. split; [lia|]. intros j i Ej Lj.
        destruct (Nat.eq_dec j pos) as [->|Nj]; [rewrite Ep in Ej; injection Ej as <-; reflexivity|].
        apply (W (j - S pos) i); [|lia]. rewrite R'. replace (S pos + (j - S pos)) with j by lia. exact Ej.
    + intros f L. destruct (Nat.eqb_spec f pos); [lia|]. apply Jn. lia.
    + intro f. destruct (Nat.eqb f pos); [cbn [members length]; lia|apply Jf].
Qed.

(** ** Groups *)

Lemma sorted_ext : forall l l' : list nat, StronglySorted lt l -> StronglySorted lt l' ->
  (forall x, In x l <-> In x l') -> l = l'.
Proof.
  induction l as [|a l IH]; intros l' S S' H.
  - destruct l' as [|b l']; [reflexivity|]. exfalso. apply (H b). left. reflexivity.
  - destruct l' as [|b l']; [exfalso; apply (H a); left; reflexivity|].
    inversion S; subst. inversion S'; subst. rewrite Forall_forall in H3, H5.
    assert (E : a = b).
    { destruct (proj1 (H a) (or_introl eq_refl)) as [Q|Q]; [auto|].
      destruct (proj2 (H b) (or_introl eq_refl)) as [Q'|Q']; [auto|].
      specialize (H3 b Q'). specialize (H5 a Q). lia. }
    subst b. f_equal. apply IH; auto. intro x. specialize (H x). cbn [In] in H. split; intro I.
    + destruct (proj1 H (or_intror I)) as [<-|Q]; [specialize (H3 a I); lia|exact Q].
    + destruct (proj2 H (or_intror I)) as [<-|Q]; [specialize (H5 a I); lia|exact Q].
Qed.

Lemma filter_sorted (f : nat -> bool) : forall l, StronglySorted lt l -> StronglySorted lt (filter f l).
Proof.
  induction 1 as [|x l S IH F]; cbn [filter]; [constructor|]. destruct (f x); [|exact IH].
  constructor; [exact IH|]. rewrite Forall_forall in *. intros y Hy. apply filter_In in Hy as [Hy _]. apply F, Hy.
Qed.

Lemma seq_sorted n : forall s, StronglySorted lt (seq s n).
Proof.
  induction n as [|n IH]; intro s; cbn [seq]; constructor; [apply IH|].
  apply Forall_forall. intros x Hx. apply in_seq in Hx. lia.
Qed.

Definition gather_at (q : nat) : list gather := match nth q block Other with Gather g => [g] | _ => [] end.

Lemma group_of_ok p pos mem f : inv p pos mem -> group_of p f block = flat_map gather_at (mem f).
Proof.
  intro J. unfold group_of.
  set (sel := fun q => match p q with Some (f', _) => Nat.eqb f' f | None => false end).
  assert (E : forall l, flat_map (fun q => match p q, nth q block Other with
                     | Some (f', _), Gather g => if Nat.eqb f' f then [g] else []
                     | _, _ => []
                     end) l = flat_map gather_at (filter sel l)).
  { induction l as [|q l IH]; [reflexivity|]. cbn [flat_map filter]. rewrite IH. unfold sel at 2.
    destruct (p q) as [[f' k]|]; [|reflexivity]. unfold gather_at at 2.
    destruct (Nat.eqb f' f); [cbn [flat_map]; unfold gather_at at 1|];
      destruct (nth q block Other); reflexivity. }
  rewrite E. f_equal. apply sorted_ext.
  - apply filter_sorted, seq_sorted.
  - apply (inv_sorted _ _ _ J).
  - intro q. rewrite filter_In, in_seq. unfold sel. split.
    + intros [_ H]. destruct (p q) as [[f' k]|] eqn:Pq; [|discriminate]. apply Nat.eqb_eq in H. subst f'.
      apply (inv_iff _ _ _ J) in Pq. apply nth_error_In in Pq. exact Pq.
    + intro I. destruct (In_nth_error _ _ I) as [k Ek]. apply (inv_iff _ _ _ J) in Ek. rewrite Ek, Nat.eqb_refl.
      split; [|reflexivity]. destruct (inv_ok _ _ _ J f q I) as (g0 & g & _ & Eq & _).
      assert (nth_error block q <> None) as X by congruence. apply nth_error_Some in X. lia.
Qed.

Lemma memory_at_same mem f q : alone block -> f <= q ->
  (forall j i, nth_error block j = Some i -> f <= j < q -> may_write i = false) ->
  memory_at block mem q = memory_at block mem f.
Proof.
  intros Al L H. induction L as [|q L IH]; [reflexivity|].
  rewrite <- IH by (intros j i E B; apply (H j i E); lia). unfold memory_at.
  destruct (nth_error block q) as [i|] eqn:E.
  - assert (X : firstn (S q) block = firstn q block ++ [i]).
    { clear - E. revert block E. induction q as [|q IH]; intros l E; destruct l as [|x l]; try discriminate.
      - cbn in E. injection E as ->. reflexivity.
      - cbn [nth_error] in E. change (firstn (S (S q)) (x :: l)) with (x :: firstn (S q) l).
        rewrite (IH l E). reflexivity. }
    rewrite X, fold_left_app. cbn [fold_left].
    pose proof (H q i E ltac:(lia)) as W. destruct i as [g|f'|f'|]; cbn [effect]; try reflexivity.
    + discriminate W.
    + apply Al. apply nth_error_In in E. exact E.
  - apply nth_error_None in E. rewrite !firstn_all2 by lia. reflexivity.
Qed.

Lemma value_ok strict n p pos mem e m q :
  inv p pos mem -> alone block ->
  (n = 4 \/ n = 8 \/ n = 16) ->
  (forall g, In (Gather g) block -> full n g /\ plain g /\ no_overflow e g) ->
  (forall f, no_halves strict (group_of p f block)) ->
  value_after strict n p e m block q = value_before e m block q.
Proof.
  intros J Al Wn Hg Nh. unfold value_after. destruct (p q) as [[f k]|] eqn:Pq; [|reflexivity].
  pose proof (proj1 (inv_iff _ _ _ J q f k) Pq) as Mk.
  assert (Iq : In q (mem f)) by (apply nth_error_In in Mk; exact Mk).
  destruct (inv_ok _ _ _ J f q Iq) as (g0 & g & E0 & Eq & Sg & L & W).
  specialize (Nh f). rewrite (group_of_ok p pos mem f J) in *.
  assert (One : forall l, (forall x, In x l -> ok f x) ->
     forall x j, nth_error l j = Some x -> exists gx, nth_error block x = Some (Gather gx) /\
       nth_error (flat_map gather_at l) j = Some gx).
  { induction l as [|y l IH]; intros Hl x j Ej; [destruct j; discriminate|].
    destruct (Hl y (or_introl eq_refl)) as (h0 & h & _ & Ey & _). cbn [flat_map]. unfold gather_at at 1.
    rewrite (nth_error_nth block y Other Ey). cbn [app]. destruct j as [|j]; cbn [nth_error] in *.
    - injection Ej as <-. exists h. split; [exact Ey|reflexivity].
    - apply IH; [intros z Hz; apply Hl; right; exact Hz|exact Ej]. }
  assert (All : forall h, In h (flat_map gather_at (mem f)) -> same_call g0 h = true /\ In (Gather h) block).
  { intros h Hh. apply in_flat_map in Hh as (x & Hx & Hh).
    destruct (inv_ok _ _ _ J f x Hx) as (h0 & hx & E0' & Ex & Sx & _). rewrite E0 in E0'. injection E0' as <-.
    unfold gather_at in Hh. rewrite (nth_error_nth block x Other Ex) in Hh. destruct Hh as [<-|[]].
    split; [exact Sx|]. apply nth_error_In in Ex. exact Ex. }
  destruct (One (mem f) (inv_ok _ _ _ J f) q k Mk) as (gq & Eq' & Nk). rewrite Eq in Eq'. injection Eq' as <-.
  rewrite (coalesce_ok strict n e _ g (flat_map gather_at (mem f))); [|apply nth_error_In in Nk; exact Nk| | |exact Nh].
  - unfold value_before. rewrite Eq, nth_error_map, Nk. cbn [option_map]. do 2 f_equal.
    symmetry. apply memory_at_same; auto.
  - intros h Hh. destruct (All h Hh) as [Sh Ih]. split.
    + apply same_call_eq in Sg. apply same_call_eq in Sh. unfold same_call.
      rewrite !andb_true_iff, !Nat.eqb_eq. intuition congruence.
    + apply Hg, Ih.
  - unfold width_ok. intuition.
Qed.

End Block.

Theorem block_ok strict n all_on uniform block e m q :
  alone block -> (n = 4 \/ n = 8 \/ n = 16) ->
  (forall g, In (Gather g) block -> full n g /\ plain g /\ no_overflow e g) ->
  (forall f, no_halves strict (group_of (coalesce_pass all_on uniform block) f block)) ->
  value_after strict n (coalesce_pass all_on uniform block) e m block q = value_before e m block q.
Proof.
  intros Al Wn Hg Nh.
  destruct (pass_loop_ok block all_on uniform block (fun _ => None) 0 (fun _ => [])) as [mem J].
  - reflexivity.
  - constructor.
    + intros x f k. split; [discriminate|destruct k; discriminate].
    + intro f. constructor.
    + intros f x [].
    + reflexivity.
    + intro f. cbn. lia.
  - apply (value_ok block strict n _ _ mem e m q J); assumption.
Qed.
