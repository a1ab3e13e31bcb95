(** Proofs for gather coalescing (C35): the choice of the loads. *)

From Coq Require Import ZArith List Bool Lia Sorted.
From Verif Require Import Bits CoalesceModel CoalesceSpec.
Import ListNotations.
Open Scope Z_scope.

Definition ascending (l : list Z) : Prop := StronglySorted Z.lt l.

Lemma set_insert_in x l y : In y (set_insert x l) <-> y = x \/ In y l.
Proof.
  induction l as [|z l IH]; cbn [set_insert In]; [intuition|].
  destruct (x <? z); [cbn [In]; intuition|].
  destruct (Z.eqb_spec x z) as [->|N]; cbn [In]; [intuition|]. rewrite IH. intuition.
Qed.

Lemma set_insert_ascending x l : ascending l -> ascending (set_insert x l).
Proof.
  unfold ascending. induction l as [|z l IH]; cbn [set_insert]; intro H.
  - repeat constructor.
  - inversion H; subst. destruct (Z.ltb_spec x z).
    + constructor; [exact H|]. constructor; [lia|].
      eapply Forall_impl; [|exact H3]. intros; lia.
    + destruct (Z.eqb_spec x z); [exact H|]. constructor; [apply IH, H2|].
      apply Forall_forall. intros y Hy. apply set_insert_in in Hy as [->|Hy]; [lia|].
      rewrite Forall_forall in H3. apply H3, Hy.
Qed.

Lemma set_of_gen l : forall s, ascending s ->
  ascending (fold_left (fun s x => set_insert x s) l s) /\
  forall y, In y (fold_left (fun s x => set_insert x s) l s) <-> In y l \/ In y s.
Proof.
  induction l as [|x l IH]; intros s Hs; cbn [fold_left In]; [intuition|].
  destruct (IH (set_insert x s) (set_insert_ascending x s Hs)) as [A B]. split; [exact A|].
  intro y. rewrite B, set_insert_in. intuition.
Qed.

Lemma set_of_ok l : ascending (set_of l) /\ forall y, In y (set_of l) <-> In y l.
Proof.
  destruct (set_of_gen l [] ltac:(constructor)) as [A B]. split; [exact A|].
  intro y. unfold set_of. rewrite B. cbn [In]. intuition.
Qed.

(** ** One wide load *)

(** [z] lies between two of the offsets that are at most three apart. *)
Definition between (l : list Z) (z : Z) : Prop :=
  exists x y, In x l /\ In y l /\ x <= z <= y /\ y - x <= 3.

Lemma between_incl l l' z : (forall x, In x l -> In x l') -> between l z -> between l' z.
Proof. intros H (x & y & X & Y & B). exists x, y. auto. Qed.

Lemma efficient_loop_ok vw first : forall iter last rest,
  ascending iter -> Forall (Z.le last) iter -> first <= last < first + vw ->
  efficient_loop vw first last iter = Some rest ->
  exists part, iter = part ++ rest /\ (forall x, In x part -> last <= x < first + vw) /\
    (forall x, In x rest -> first + vw <= x) /\
    forall z, last <= z < first + vw -> between (last :: iter) z.
Proof.
  induction iter as [|x next IH]; intros last rest S G L E; cbn [efficient_loop] in E; [discriminate|].
  inversion S; subst. inversion G; subst.
  destruct (x - last >? 3) eqn:D; [discriminate|].
  assert (D' : x - last <= 3) by (destruct (Z.gtb_spec (x - last) 3); [discriminate|lia]). clear D.
  rewrite Forall_forall in H2.
  destruct (Z.eqb_spec (x - first + 1) vw) as [Q|Q].
  - injection E as <-. exists [x]. split; [reflexivity|]. split; [|split].
    + intros y [<-|[]]. lia.
    + intros y Hy. specialize (H2 y Hy). lia.
    + intros z Hz. exists last, x. cbn [In]. intuition lia.
  - destruct (Z.gtb_spec (x - first + 1) vw) as [Q'|Q'].
    + destruct (negb (vw =? 2) && (last - first >? vw / 2) && (x - last <? 4096)) eqn:C; [|discriminate].
      injection E as <-. exists []. split; [reflexivity|]. split; [intros y []|]. split.
      * intros y [<-|Hy]; [lia|]. specialize (H2 y Hy). lia.
      * intros z Hz. exists last, x. cbn [In]. intuition lia.
    + destruct (IH x rest H1) as (part & -> & A & B & C); [|lia|exact E|].
      { apply Forall_forall. intros y Hy. specialize (H2 y Hy). lia. }
      exists (x :: part). split; [reflexivity|]. split; [|split; [exact B|]].
      * intros y [<-|Hy]; [lia|]. specialize (A y Hy). lia.
      * intros z Hz. destruct (Z.le_gt_cases z x) as [Lz|Lz].
        -- exists last, x. cbn [In]. intuition lia.
        -- eapply between_incl; [|apply C; lia]. intros y Hy. right. exact Hy.
Qed.

Lemma efficient_ok vw x next rest : 1 <= vw -> ascending (x :: next) -> efficient (x :: next) vw = Some rest ->
  exists part, x :: next = part ++ rest /\ (forall y, In y part -> x <= y < x + vw) /\
    (forall y, In y rest -> x + vw <= y) /\
    forall z, x <= z < x + vw -> between (x :: next) z.
Proof.
  intros V S E. cbn [efficient] in E.
  destruct (efficient_loop_ok vw x (x :: next) x rest) as (part & A & B & C & D); auto.
  - apply Forall_forall. inversion S; subst. rewrite Forall_forall in H2.
    intros y [<-|Hy]; [lia|]. specialize (H2 y Hy). lia.
  - lia.
  - exists part. split; [exact A|]. split; [exact B|]. split; [exact C|].
    intros z Hz. eapply between_incl; [|apply D, Hz]. intros y [<-|Hy]; [left; reflexivity|exact Hy].
Qed.

Lemma try_widths_ok x next ws w rest : Forall (Z.le 2) ws -> ascending (x :: next) ->
  try_widths (x :: next) ws = Some (w, rest) ->
  In w ws /\ exists part, x :: next = part ++ rest /\ (forall y, In y part -> x <= y < x + w) /\
    (forall y, In y rest -> x + w <= y) /\
    forall z, x <= z < x + w -> between (x :: next) z.
Proof.
  intros W S. induction ws as [|v ws IH]; cbn [try_widths]; [discriminate|].
  inversion W; subst. destruct (efficient (x :: next) v) as [r|] eqn:E.
  - intro Q. injection Q as <- <-. split; [left; reflexivity|]. apply efficient_ok; [lia|exact S|exact E].
  - intro Q. destruct (IH H2 Q) as [I X]. split; [right; exact I|exact X].
Qed.

(** ** All the loads *)

Definition range (o : op) (z : Z) : Prop := start o <= z < start o + count o.

Definition apart (ops : list op) : Prop :=
  StronglySorted (fun o o' => start o + count o <= start o') ops.

Definition sizes (ops : list op) : Prop :=
  forall o, In o ops -> count o = 1 \/ count o = 2 \/ count o = 4 \/ count o = 8.

Lemma ascending_suffix a b : ascending (a ++ b) -> ascending b.
Proof.
  induction a as [|x a IH]; [auto|]. cbn [app]. intro H. inversion H; subst. apply IH; assumption.
Qed.

Lemma select_loop_ok : forall fuel iter, (length iter <= fuel)%nat -> ascending iter ->
  exists ops, select_loop fuel iter = Some ops /\ apart ops /\ sizes ops /\
    (forall x, In x iter -> exists o, In o ops /\ range o x) /\
    (forall o, In o ops -> In (start o) iter) /\
    (forall o z, In o ops -> range o z -> between iter z).
Proof.
  induction fuel as [|fuel IH]; intros iter L S.
  - destruct iter; [|cbn [length] in L; lia]. exists []. cbn.
    split; [reflexivity|]. split; [constructor|]. split; [intros o []|].
    split; [intros x []|]. split; [intros o []|intros o z []].
  - destruct iter as [|x next].
    { exists []. cbn.
      split; [reflexivity|]. split; [constructor|]. split; [intros o []|].
      split; [intros x []|]. split; [intros o []|intros o z []]. }
    cbn [select_loop].
    assert (X : exists w rest, match try_widths (x :: next) [8; 4; 2] with Some r => r | None => (1, next) end = (w, rest) /\
       (w = 1 \/ w = 2 \/ w = 4 \/ w = 8) /\
       exists part, x :: next = part ++ rest /\ (forall y, In y part -> x <= y < x + w) /\
        (forall y, In y rest -> x + w <= y) /\ forall z, x <= z < x + w -> between (x :: next) z).
    { destruct (try_widths (x :: next) [8; 4; 2]) as [[w rest]|] eqn:E.
      - exists w, rest. split; [reflexivity|].
        destruct (try_widths_ok x next [8; 4; 2] w rest) as [I P]; auto.
        { repeat constructor; lia. }
        split; [cbn [In] in I; intuition|exact P].
      - exists 1, next. split; [reflexivity|]. split; [auto|]. exists [x]. split; [reflexivity|].
        inversion S; subst. rewrite Forall_forall in H2. split; [intros y [<-|[]]; lia|]. split.
        + intros y Hy. specialize (H2 y Hy). lia.
        + intros z Hz. exists x, x. cbn [In]. intuition lia. }
    destruct X as (w & rest & -> & W & part & P & A & B & C).
    assert (Np : part <> []).
    { intros ->. cbn [app] in P. subst rest. specialize (B x (or_introl eq_refl)). lia. }
    assert (L' : (length rest <= fuel)%nat).
    { apply (f_equal (@length Z)) in P. rewrite app_length in P. cbn [length] in *.
      destruct part; [congruence|]. cbn [length] in P. lia. }
    assert (S' : ascending rest) by (apply (ascending_suffix part); rewrite <- P; exact S).
    assert (Inc : forall y, In y rest -> In y (x :: next)) by (intros y Hy; rewrite P; apply in_or_app; auto).
    destruct (IH rest L' S') as (ops & -> & Ap & Sz & Co & St & Be).
    exists (new_op x w :: ops). split; [reflexivity|]. split; [|split; [|split; [|split]]].
    + constructor; [exact Ap|]. apply Forall_forall. intros o Ho. cbn [new_op start count].
      apply B, St, Ho.
    + intros o [<-|Ho]; [cbn; intuition|apply Sz, Ho].
    + intros y Hy. rewrite P in Hy. apply in_app_or in Hy as [Hy|Hy].
      * exists (new_op x w). split; [left; reflexivity|]. apply A, Hy.
      * destruct (Co y Hy) as (o & Ho & R). exists o. split; [right; exact Ho|exact R].
    + intros o [<-|Ho]; [left; reflexivity|]. apply Inc, St, Ho.
    + intros o z [<-|Ho] R; [apply C, R|]. eapply between_incl; [exact Inc|]. apply (Be o z Ho R).
Qed.

Lemma select_loads_ok l : exists ops, select_loads l = Some ops /\ apart ops /\ sizes ops /\
    (forall x, In x l -> exists o, In o ops /\ range o x) /\
    (forall o, In o ops -> In (start o) l) /\
    (forall o z, In o ops -> range o z -> between l z).
Proof.
  destruct (set_of_ok l) as [A B]. unfold select_loads.
  destruct (select_loop_ok (length (set_of l)) (set_of l) (le_n _) A) as (ops & E & Ap & Sz & Co & St & Be).
  exists ops. split; [exact E|]. split; [exact Ap|]. split; [exact Sz|]. split; [|split].
  - intros x Hx. apply Co, B, Hx.
  - intros o Ho. apply B, St, Ho.
  - intros o z Ho R. eapply between_incl; [|apply (Be o z Ho R)]. intros y. apply B.
Qed.

(** ** Memory *)

Lemma word_range mem a : 0 <= word mem a < 2 ^ 32.
Proof.
  assert (H : forall x, 0 <= byte mem x < 2 ^ 8) by (intro x; apply wrapu_range; lia).
  unfold word. pose proof (H a). pose proof (H (a + 1)). pose proof (H (a + 2)). pose proof (H (a + 3)). lia.
Qed.

Lemma byte_mod mem a b : a mod 2 ^ 64 = b mod 2 ^ 64 -> byte mem a = byte mem b.
Proof. intro H. unfold byte, wrapu. rewrite H. reflexivity. Qed.

Lemma word_mod mem a b : a mod 2 ^ 64 = b mod 2 ^ 64 -> word mem a = word mem b.
Proof.
  intro H.
  assert (K : forall k, (a + k) mod 2 ^ 64 = (b + k) mod 2 ^ 64).
  { intro k. rewrite (Zplus_mod a), (Zplus_mod b), H. reflexivity. }
  unfold word. rewrite (byte_mod mem a b H). repeat rewrite (byte_mod mem (a + _) (b + _) (K _)). reflexivity.
Qed.

(** ** The values of the loads *)

Section Loads.
Variable mem : memory.
Variable p : Z.

Definition val (k : Z) : Z := word mem (p + 4 * k).

Definition good (o : op) : Prop :=
  (count o = 1 /\ load o = [val (start o)]) \/
  (count o = 2 /\ load o = [val (start o) + 2 ^ 32 * val (start o + 1)] /\
     element0 o = val (start o) /\ element1 o = val (start o + 1)) \/
  (count o = 4 /\ load o = [val (start o); val (start o + 1); val (start o + 2); val (start o + 3)]) \/
  (count o = 8 /\ load o = [val (start o); val (start o + 1); val (start o + 2); val (start o + 3);
                            val (start o + 4); val (start o + 5); val (start o + 6); val (start o + 7)]).

Lemma val_range k : 0 <= val k < 2 ^ 32.
Proof. apply word_range. Qed.

Lemma word_at s i : word mem (p + s * 4 + i) = word mem (p + 4 * s + i).
Proof. f_equal. lia. Qed.

Lemma halves_ok x y : 0 <= x < 2 ^ 32 -> 0 <= y < 2 ^ 32 ->
  wrapu 32 (x + 2 ^ 32 * y) = x /\ wrapu 32 (Z.shiftr (x + 2 ^ 32 * y) 32) = y.
Proof.
  intros X Y. rewrite Z.shiftr_div_pow2 by lia. unfold wrapu. split.
  - rewrite Z.mul_comm, Z_mod_plus_full. apply Z.mod_small, X.
  - rewrite Z.mul_comm, Z_div_plus by lia. rewrite (Z.div_small x) by exact X. cbn [Z.add]. apply Z.mod_small, Y.
Qed.

Lemma emit_load_ok o : (count o = 1 \/ count o = 2 \/ count o = 4 \/ count o = 8) ->
  exists o', emit_load mem p 4 o = Some o' /\ start o' = start o /\ count o' = count o /\ good o'.
Proof.
  intros C. unfold emit_load.
  assert (W : forall i, word mem (p + start o * 4 + 4 * Z.of_nat i) = val (start o + Z.of_nat i)).
  { intro i. unfold val. f_equal. lia. }
  assert (W0 : word mem (p + start o * 4) = val (start o)) by (unfold val; f_equal; lia).
  assert (W1 : word mem (p + start o * 4 + 4) = val (start o + 1)) by (unfold val; f_equal; lia).
  assert (W0' : val (start o + 0) = val (start o)) by (f_equal; lia).
  destruct C as [C|[C|[C|C]]]; rewrite C; cbn [Z.eqb Pos.eqb]; eexists; (split; [reflexivity|]);
    cbn [start count]; (split; [reflexivity|]); (split; [reflexivity|]); unfold good; cbn [start count load element0 element1].
  - left. split; [reflexivity|]. unfold words. cbn [seq map]. rewrite W. cbn [Z.of_nat]. rewrite W0'. reflexivity.
  - right; left. rewrite W0, W1. split; [reflexivity|]. split; [reflexivity|].
    apply halves_ok; apply val_range.
  - right; right; left. split; [reflexivity|]. unfold words. cbn [seq map]. rewrite !W. cbn [Z.of_nat Pos.of_succ_nat Pos.succ]. rewrite W0'. reflexivity.
  - right; right; right. split; [reflexivity|]. unfold words. cbn [seq map]. rewrite !W. cbn [Z.of_nat Pos.of_succ_nat Pos.succ]. rewrite W0'. reflexivity.
Qed.

Definition similar (l l' : list op) : Prop :=
  Forall2 (fun o o' => start o' = start o /\ count o' = count o) l l'.

Lemma emit_loads_ok ops : sizes ops ->
  exists ops', emit_loads mem p 4 ops = Some ops' /\ similar ops ops' /\ Forall good ops'.
Proof.
  induction ops as [|o ops IH]; intro Sz.
  - exists []. split; [reflexivity|]. split; constructor.
  - destruct (emit_load_ok o (Sz o (or_introl eq_refl))) as (o' & E & A & B & G).
    destruct IH as (ops' & E' & S & F). { intros x Hx. apply Sz. right. exact Hx. }
    unfold emit_loads in *. cbn [map_opt]. rewrite E, E'. exists (o' :: ops'). split; [reflexivity|].
    split; constructor; auto.
Qed.

Lemma similar_apart l l' : similar l l' -> apart l -> apart l'.
Proof.
  induction 1 as [|o o' l l' [A B] R IH]; intro H; [constructor|].
  inversion H; subst. constructor; [apply IH; assumption|].
  clear - A B R H3. induction R as [|q q' l l' [C D] R IH]; [constructor|]. inversion H3; subst.
  constructor; [lia|apply IH; assumption].
Qed.

Lemma similar_cover l l' x : similar l l' ->
  (exists o, In o l /\ range o x) -> exists o, In o l' /\ range o x.
Proof.
  induction 1 as [|o o' l l' [A B] R IH]; intros (q & Hq & Rq); [destruct Hq|].
  destruct Hq as [<-|Hq].
  - exists o'. split; [left; reflexivity|]. unfold range in *. lia.
  - destruct IH as (q' & Hq' & Rq'); [exists q; auto|]. exists q'. split; [right; exact Hq'|exact Rq'].
Qed.

(** ** Splitting the 8-wide loads *)

Definition small (o : op) : Prop := count o = 1 \/ count o = 2 \/ count o = 4.

Definition split_one (o : op) : list op :=
    if count o =? 8 then
      let part idx := map (fun i => nth i (load o ++ load o) 0) idx in
      [{| start := start o; count := 4; load := part [0; 1; 2; 3]%nat; element0 := 0; element1 := 0 |};
       {| start := start o + 4; count := 4; load := part [4; 5; 6; 7]%nat; element0 := 0; element1 := 0 |}]
    else [o].

Lemma split_one_ok o : good o ->
  Forall good (split_one o) /\ Forall small (split_one o) /\ apart (split_one o) /\
  (forall o', In o' (split_one o) -> start o <= start o' /\ start o' + count o' <= start o + count o) /\
  (forall x, range o x -> exists o', In o' (split_one o) /\ range o' x).
Proof.
  intro G. unfold split_one. destruct (Z.eqb_spec (count o) 8) as [E|E].
  - destruct G as [[C _]|[[C _]|[[C _]|[_ L]]]]; try lia. rewrite L. cbn [app map nth].
    assert (S4 : start o + 4 + 0 = start o + 4) by lia.
    repeat match goal with |- _ /\ _ => split end.
    + constructor; [|constructor; [|constructor]]; right; right; left; cbn [start count load]; split; try reflexivity.
      replace (start o + 4 + 1) with (start o + 5) by lia.
      replace (start o + 4 + 2) with (start o + 6) by lia.
      replace (start o + 4 + 3) with (start o + 7) by lia. reflexivity.
    + constructor; [|constructor; [|constructor]]; right; right; reflexivity.
    + constructor; [constructor; [constructor|constructor]|]. constructor; [cbn; lia|constructor].
    + intros o' [<-|[<-|[]]]; cbn [start count]; lia.
    + intros x R. unfold range in *. destruct (Z.lt_ge_cases x (start o + 4)).
      * eexists; split; [left; reflexivity|]. cbn [start count]. lia.
      * eexists; split; [right; left; reflexivity|]. cbn [start count]. lia.
  - repeat match goal with |- _ /\ _ => split end.
    + constructor; [exact G|constructor].
    + constructor; [|constructor]. destruct G as [[C _]|[[C _]|[[C _]|[C _]]]]; unfold small; auto; lia.
    + constructor; constructor.
    + intros o' [<-|[]]. lia.
    + intros x R. exists o. split; [left; reflexivity|exact R].
Qed.

Lemma apart_app a b : apart a -> apart b ->
  (forall o o', In o a -> In o' b -> start o + count o <= start o') -> apart (a ++ b).
Proof.
  intros A B H. induction A as [|o a A IH F]; [exact B|].
  cbn [app]. constructor.
  - apply IH. intros q q' Hq Hq'. apply H; [right|]; assumption.
  - apply Forall_app. split; [exact F|]. apply Forall_forall. intros q Hq. apply H; [left; reflexivity|exact Hq].
Qed.

Lemma split8_ok ops : Forall good ops -> apart ops ->
  Forall good (split8 ops) /\ Forall small (split8 ops) /\ apart (split8 ops) /\
  (forall o', In o' (split8 ops) -> exists o, In o ops /\ start o <= start o' /\ start o' + count o' <= start o + count o) /\
  (forall x, (exists o, In o ops /\ range o x) -> exists o', In o' (split8 ops) /\ range o' x).
Proof.
  induction ops as [|o ops IH]; intros G A.
  - cbn. split; [constructor|]. split; [constructor|]. split; [constructor|].
    split; [intros o []|intros x (o & [] & _)].
  - inversion G; subst. inversion A; subst.
    destruct (IH H2 H3) as (A1 & A2 & A3 & A4 & A5).
    destruct (split_one_ok o H1) as (B1 & B2 & B3 & B4 & B5).
    change (split8 (o :: ops)) with (split_one o ++ split8 ops).
    repeat match goal with |- _ /\ _ => split end.
    + apply Forall_app; auto.
    + apply Forall_app; auto.
    + apply apart_app; auto. intros q q' Hq Hq'. specialize (B4 q Hq).
      destruct (A4 q' Hq') as (r & Hr & R). rewrite Forall_forall in H4. specialize (H4 r Hr). lia.
    + intros o' Ho'. apply in_app_or in Ho' as [Ho'|Ho'].
      * exists o. split; [left; reflexivity|apply B4, Ho'].
      * destruct (A4 o' Ho') as (r & Hr & R). exists r. split; [right; exact Hr|exact R].
    + intros x (q & [<-|Hq] & R).
      * destruct (B5 x R) as (o' & Ho' & R'). exists o'. split; [apply in_or_app; auto|exact R'].
      * destruct (A5 x) as (o' & Ho' & R'); [exists q; auto|]. exists o'. split; [apply in_or_app; auto|exact R'].
Qed.

(** ** One vector of four *)

Definition pick (o : op) (off : Z) (r : option Z) : option Z := if covers o off then Some (val off) else r.

Lemma covers_iff o x : covers o x = true <-> range o x.
Proof. unfold covers, range. rewrite andb_true_iff, Z.leb_le, Z.ltb_lt. reflexivity. Qed.

Section Four.
Variables a b c d : Z.

Definition after (o : op) (s : state) : state :=
  let r k := nth k (fst s) None in let t k := nth k (snd s) false in
  ([pick o a (r 0%nat); pick o b (r 1%nat); pick o c (r 2%nat); pick o d (r 3%nat)],
   [t 0%nat || covers o a; t 1%nat || covers o b; t 2%nat || covers o c; t 3%nat || covers o d]).

Definition free (o : op) (s : state) : Prop :=
  (covers o a = true -> nth 0 (snd s) false = false) /\ (covers o b = true -> nth 1 (snd s) false = false) /\
  (covers o c = true -> nth 2 (snd s) false = false) /\ (covers o d = true -> nth 3 (snd s) false = false).

Definition four (s : state) : Prop :=
  exists r0 r1 r2 r3 t0 t1 t2 t3, s = ([r0; r1; r2; r3], [t0; t1; t2; t3]).

Lemma cover_eq1 o x : count o = 1 -> covers o x = true -> x = start o.
Proof. intros C H. apply covers_iff in H. unfold range in H. lia. Qed.

Lemma cover_eq2 o x : count o = 2 -> covers o x = true -> x = start o \/ x = start o + 1.
Proof. intros C H. apply covers_iff in H. unfold range in H. lia. Qed.

Lemma apply1_ok o s : good o -> count o = 1 -> four s -> free o s -> apply1 o [a; b; c; d] s = Some (after o s).
Proof.
  intros G C (r0 & r1 & r2 & r3 & t0 & t1 & t2 & t3 & ->) (F0 & F1 & F2 & F3). cbn [snd nth] in *.
  destruct G as [[_ L]|[[C' _]|[[C' _]|[C' _]]]]; try lia.
  assert (V : forall x, covers o x = true -> val x = val (start o)).
  { intros x Hx. rewrite (cover_eq1 o x C Hx). reflexivity. }
  unfold apply1, after, pick. cbn [apply1_loop nth fst snd]. rewrite L. unfold insert. cbn [nth fst snd].
  destruct (covers o a) eqn:Ka; [rewrite (F0 eq_refl), (V a Ka)|]; cbn [update nth fst snd];
  (destruct (covers o b) eqn:Kb; [rewrite (F1 eq_refl), (V b Kb)|]; cbn [update nth fst snd]);
  (destruct (covers o c) eqn:Kc; [rewrite (F2 eq_refl), (V c Kc)|]; cbn [update nth fst snd]);
  (destruct (covers o d) eqn:Kd; [rewrite (F3 eq_refl), (V d Kd)|]; cbn [update nth fst snd]);
  cbn [orb]; rewrite ?orb_false_r; reflexivity.
Qed.

Lemma apply4_ok o s : good o -> count o = 4 -> four s -> free o s -> apply4 o [a; b; c; d] s = Some (after o s).
Proof.
  intros G C (r0 & r1 & r2 & r3 & t0 & t1 & t2 & t3 & ->) (F0 & F1 & F2 & F3). cbn [snd nth] in *.
  destruct G as [[C' _]|[[C' _]|[[_ L]|[C' _]]]]; try lia.
  assert (V : forall x, covers o x = true ->
     let i := Z.to_nat (x - start o) in
     (i < 4)%nat /\ nth i (map Some (load o) ++ [r0; r1; r2; r3]) None = Some (val x)).
  { intros x Hx. apply covers_iff in Hx. unfold range in Hx. rewrite C in Hx. cbn zeta. split; [lia|].
    rewrite L. cbn [map].
    assert (X : x = start o \/ x = start o + 1 \/ x = start o + 2 \/ x = start o + 3) by lia.
    destruct X as [-> | [-> | [-> | ->]]].
    - replace (start o - start o) with 0 by lia. reflexivity.
    - replace (start o + 1 - start o) with 1 by lia. reflexivity.
    - replace (start o + 2 - start o) with 2 by lia. reflexivity.
    - replace (start o + 3 - start o) with 3 by lia. reflexivity. }
  assert (N : nth 4 (map Some (load o) ++ [r0; r1; r2; r3]) None = r0 /\
              nth 5 (map Some (load o) ++ [r0; r1; r2; r3]) None = r1 /\
              nth 6 (map Some (load o) ++ [r0; r1; r2; r3]) None = r2 /\
              nth 7 (map Some (load o) ++ [r0; r1; r2; r3]) None = r3).
  { rewrite L. cbn. auto. }
  destruct N as (N0 & N1 & N2 & N3).
  unfold apply4, after, pick. cbn [apply4_loop nth fst snd].
  destruct (covers o a) eqn:Ka; [rewrite (F0 eq_refl); destruct (V a Ka) as [Ia Va]|]; cbn [update nth];
  (destruct (covers o b) eqn:Kb; [rewrite (F1 eq_refl); destruct (V b Kb) as [Ib Vb]|]; cbn [update nth]);
  (destruct (covers o c) eqn:Kc; [rewrite (F2 eq_refl); destruct (V c Kc) as [Ic Vc]|]; cbn [update nth]);
  (destruct (covers o d) eqn:Kd; [rewrite (F3 eq_refl); destruct (V d Kd) as [Id Vd]|]; cbn [update nth]);
  cbn [combine forallb fst snd Nat.eqb andb];
  repeat match goal with
  | |- context [Nat.eqb (Z.to_nat ?x) ?k] => rewrite (proj2 (Nat.eqb_neq (Z.to_nat x) k)) by lia
  end; cbn [andb]; unfold shuffle; cbn [map]; rewrite ?orb_true_r, ?orb_false_r;
  try (rewrite Va); try (rewrite Vb); try (rewrite Vc); try (rewrite Vd);
  rewrite ?N0, ?N1, ?N2, ?N3; reflexivity.
Qed.

(** A two-wide load at once into a pair of elements. *)
Definition no_pair : Prop := a + 1 <> b /\ c + 1 <> d.

Lemma apply2_ok strict o s : strict = false \/ no_pair ->
  good o -> count o = 2 -> four s -> free o s -> apply2 strict o [a; b; c; d] s = Some (after o s).
Proof.
  intros St G C (r0 & r1 & r2 & r3 & t0 & t1 & t2 & t3 & ->) (F0 & F1 & F2 & F3). cbn [snd nth] in *.
  destruct G as [[C' _]|[(_ & L & E0 & E1)|[[C' _]|[C' _]]]]; try lia.
  assert (V : forall x, covers o x = true -> val x = if x =? start o then element0 o else element1 o).
  { intros x Hx. destruct (cover_eq2 o x C Hx) as [-> | ->].
    - rewrite Z.eqb_refl, E0. reflexivity.
    - rewrite (proj2 (Z.eqb_neq (start o + 1) (start o))) by lia. rewrite E1. reflexivity. }
  assert (K : forall x y, (x + 1 =? y) && (x =? start o) = true ->
            covers o x = true /\ covers o y = true /\ val x = val (start o) /\ val y = val (start o + 1)).
  { intros x y H. apply andb_true_iff in H as [H1 H2]. apply Z.eqb_eq in H1. apply Z.eqb_eq in H2.
    subst. rewrite !covers_iff. unfold range. rewrite C. repeat split; lia. }
  assert (H : halves (nth 0 (load o) 0) = (Some (val (start o)), Some (val (start o + 1)))).
  { unfold halves. rewrite L. cbn [nth].
    destruct (halves_ok (val (start o)) (val (start o + 1)) (val_range _) (val_range _)) as [-> ->]. reflexivity. }
  assert (P : forall x y, (x = a /\ y = b) \/ (x = c /\ y = d) -> (x + 1 =? y) && (x =? start o) = true -> strict = false).
  { intros x y Q R. destruct St as [St|[N1 N2]]; [exact St|].
    apply andb_true_iff in R as [R _]. apply Z.eqb_eq in R. destruct Q as [[-> ->]|[-> ->]]; contradiction. }
  unfold apply2, after, pick. cbn [apply2_loop nth fst snd Nat.ltb Nat.leb Nat.even Nat.add andb].
  destruct ((a + 1 =? b) && (a =? start o)) eqn:Qa.
  - destruct (K a b Qa) as (Ka & Kb & Va & Vb). rewrite Ka, Kb, (F0 Ka), (F1 Kb). cbn [negb andb].
    rewrite (P a b) by auto. cbn [to2x64 nth pair64 Nat.div Nat.divmod fst snd Nat.sub update].
    rewrite H. cbn [to4x32 flat_map app fst snd update nth apply2_loop Nat.ltb Nat.leb Nat.even Nat.add andb].
    destruct ((c + 1 =? d) && (c =? start o)) eqn:Qc.
    + destruct (K c d Qc) as (Kc & Kd & Vc & Vd). rewrite Kc, Kd, (F2 Kc), (F3 Kd). cbn [negb andb].
      cbn [to2x64 nth pair64 Nat.div Nat.divmod fst snd Nat.sub update].
      cbn [to4x32 flat_map app fst snd update nth apply2_loop Nat.ltb Nat.leb Nat.even Nat.add andb].
      rewrite Va, Vb, Vc, Vd. reflexivity.
    + rewrite Va, Vb. unfold insert. cbn [nth fst snd].
      (destruct (covers o c) eqn:Kc; [rewrite (F2 eq_refl), (V c Kc)|]; cbn [update nth fst snd]);
      (destruct (covers o d) eqn:Kd; [rewrite (F3 eq_refl), (V d Kd)|]; cbn [update nth fst snd]);
      cbn [orb Nat.leb]; rewrite ?orb_false_r; reflexivity.
  - unfold insert.
    (destruct (covers o a) eqn:Ka; [rewrite (F0 eq_refl), (V a Ka)|]; cbn [update nth fst snd]);
    (destruct (covers o b) eqn:Kb; [rewrite (F1 eq_refl), (V b Kb)|]; cbn [update nth fst snd]);
    (destruct ((c + 1 =? d) && (c =? start o)) eqn:Qc;
     [destruct (K c d Qc) as (Kc & Kd & Vc & Vd); rewrite Kc, Kd, (F2 Kc), (F3 Kd); cbn [negb andb];
      rewrite (P c d) by auto; rewrite H;
      cbn [to2x64 nth pair64 fst snd update Nat.div Nat.divmod Nat.sub];
      cbn [to4x32 flat_map app fst snd update nth apply2_loop Nat.ltb Nat.leb];
      rewrite Vc, Vd
     |(destruct (covers o c) eqn:Kc; [rewrite (F2 eq_refl), (V c Kc)|]; cbn [update nth fst snd]);
      (destruct (covers o d) eqn:Kd; [rewrite (F3 eq_refl), (V d Kd)|]; cbn [update nth fst snd])]);
    cbn [orb Nat.leb]; rewrite ?orb_false_r; reflexivity.
Qed.

End Four.
End Loads.
