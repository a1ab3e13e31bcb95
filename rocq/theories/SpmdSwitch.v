(** Simulation for switch statements. *)
From Coq Require Import ZArith List Bool Arith Lia.
From Verif Require Import Bits SpmdModel SpmdSpec SpmdRel SpmdProofs SpmdIf SpmdLoop.
Import ListNotations.

Lemma chk_secs_cons dv du K d F D lb body r :
  chk_secs dv du K d F D (SSec lb body r) =
  match chk dv du K d F D body with Some _ => true | None => false end && chk_secs dv du K d F D r.
Proof. reflexivity. Qed.

Lemma chk_switch dv du K d F D t ss :
  chk dv du K d F D (SSwitch t ss) =
  (let u := uniform_cf_switch t ss in
   let d' := if u then d else S d in
   let sc := match t with TU _ => true | TV _ => false end in
   let k := {| k_loop := false; k_uni := u; k_dl := d'; k_hasc := false; k_sc := sc; k_db := D; k_dc := D |} in
   if test_ok D t && nodupZ (case_values ss) && (defaults ss <=? 1) && chk_secs dv du (Some k) d' F D ss
   then Some D else None).
Proof. reflexivity. Qed.

(** ** Scalar operand *)

Definition Prun (o : opts) (n : nat) : Prop :=
  forall dv du K d F D c ss st out st',
    vrun n o c ss st = Some (out, st') -> chk_secs dv du K d F D ss = true ->
    ctxrel dv K d c -> kcond dv du d F K -> kscope K D -> scope_ok dv du d D -> inv (o_width o) K d c st ->
    post (o_width o) dv du K d F D D c st out st' (fun l s0 => lrun n (o_funs o) l ss s0).

Lemma post_refl w dv du K d F D c st R :
  inv w K d c st -> (forall l s, R l s = Some (LNorm, s)) -> post w dv du K d F D D c st VNorm st R.
Proof.
  intros HI HR. apply post_basic; auto.
  - apply uframe_refl.
  - intros; apply gframe_refl.
  - intros. exists s. auto.
Qed.

Lemma post_seq_out w dv du K d F D D1 D2 c st out st1 Ra Rb :
  out <> VNorm ->
  post w dv du K d F D D1 c st out st1 Ra ->
  (forall l s ol s', Ra l s = Some (ol, s') -> ol <> LNorm -> Rb l s = Some (ol, s')) ->
  post w dv du K d F D D2 c st out st1 Rb.
Proof.
  intros NN (U & G & Fr & Ac & I & J & B & L & T) HR. post_split; auto.
  - intros l Hl Hf Hm s Hs. destruct (Ac l Hl Hf Hm s Hs) as (ol & s' & E & O). exists ol, s'.
    assert (X : ol <> LNorm).
    { destruct out; cbn [outrel] in O; try congruence.
      - destruct O as [(-> & _)|[[_ R0] _]]; [discriminate|]. intros ->. destruct R0.
      - destruct O as [(-> & _)|[_ R0]]; [discriminate|]. intros ->. destruct R0.
      - destruct O as [-> _]. discriminate. }
    split; auto. destruct out; auto. congruence.
Qed.

Lemma Prun_S o n : Pexec o n -> Prun o n -> Prun o (S n).
Proof.
  intros IHe IHr dv du K d F D c ss st out st' HE HC HX HK HKS HO HI.
  destruct ss as [|lb body r]; cbn [vrun] in HE.
  - injection HE as <- <-. apply post_refl; auto.
  - rewrite chk_secs_cons in HC. apply andb_prop in HC as [HC1 HC2].
    destruct (chk dv du K d F D body) as [D1|] eqn:EC; [|discriminate HC1].
    destruct (vexec n o c body st) as [[out1 st1]|] eqn:E1; [|discriminate].
    pose proof (IHe dv du K d F D D1 c body st out1 st1 E1 EC HX HK HKS HO HI) as P1.
    assert (CASE : (out1 <> VNorm /\ out1 = out /\ st1 = st') \/ out1 = VNorm).
    { destruct out1; auto; injection HE as <- <-; left; split; auto; discriminate. }
    destruct CASE as [(NN & -> & ->)| -> ].
    + eapply post_seq_out; [exact NN|exact P1|]. intros l s ol s' E NE. cbn [lrun]. rewrite E.
      destruct ol; auto. congruence.
    + assert (HI1 : inv (o_width o) K d c st1) by (apply P1; auto).
      pose proof (IHr dv du K d F D c r st1 out st' HE HC2 HX HK HKS HO HI1) as P2.
      eapply post_R; [|eapply post_seq; [exact HK| |exact P2]].
      2:{ eapply post_scope; [apply scope_le_refl|eapply chk_le; eauto|exact P1]. }
      intros l s r0 _ _ _ _. unfold seqR. cbn [lrun].
      destruct (lexec n (o_funs o) l body s) as [[[] s1]|]; auto.
Qed.

(** The switch as a whole, from the sections jumped to. *)
Definition swout (r : option (lout * lst)) : option (lout * lst) :=
  match r with Some (LBrk, s) => Some (LNorm, s) | x => x end.

Lemma lpost_switch w dv du d F u k D c st out st' R :
  k_loop k = false -> k_hasc k = false -> k_uni k = u -> k_db k = D ->
  post w dv du (Some k) d F D D c st out st' R ->
  (out = VNorm \/ out = VBrk \/ out = VRet) /\
  lpost w dv du d F u D D c st (match out with VBrk => VNorm | x => x end) st' (fun l s => swout (R l s)).
Proof.
  intros KL KH KU KD (U & G & Fr & Ac & I & J & B & L & T).
  assert (O : out = VNorm \/ out = VBrk \/ out = VRet).
  { destruct out; auto. specialize (L eq_refl k eq_refl). congruence. }
  split; auto.
  assert (RC : forall ol l s', rec (Some k) ol l st' s' ->
            (ol = LBrk /\ u = false /\ v_mask st' l = false /\ v_ret st' l = false /\ agree l D st' s') \/
            (ol = LRet /\ v_mask st' l = false /\ v_ret st' l = true /\ agreeG l st' s')).
  { intros ol l s' [M R0]. destruct ol; cbn [rec0] in R0; try tauto.
    - destruct R0 as (k' & Ek & EU & Z1 & Z2 & Z3 & AG). injection Ek as <-. left. rewrite KD in AG.
      repeat split; try congruence; apply AG.
    - destruct R0 as (k' & Ek & EU & EH & _). injection Ek as <-. congruence. }
  split; [|split; [|split; [|split; [|split]]]]; auto.
  - destruct O as [ -> | [ -> | -> ] ]; auto.
  - intros l Hl Hf Hm. pose proof (Fr l Hl Hf Hm) as X. destruct out; exact X.
  - intros l Hl Hf Hm s Hs. destruct (Ac l Hl Hf Hm s Hs) as (ol & s' & E & X). rewrite E.
    destruct O as [ -> | [ -> | -> ] ]; cbn [outrel] in X.
    + destruct X as [(-> & M & AG)|X].
      * exists LNorm, s'. split; auto. left. split; auto. split; auto.
        destruct (I eq_refl l Hl Hf) as ((B1 & _) & _). apply (B1 M).
      * destruct (RC _ _ _ X) as [(-> & EU & A1 & A2 & A3)|(-> & A1 & A2 & A3)].
        -- exists LNorm, s'. split; auto. left. split; auto. split; auto. split; auto. congruence.
        -- exists LRet, s'. split; auto.
    + destruct X as [(-> & M & k' & Ek & AG)|[X _]].
      * injection Ek as <-. rewrite KD in AG. exists LNorm, s'. split; auto. left. split; auto. split; auto.
        destruct (J (or_introl eq_refl)) as (k' & _ & JJ). destruct (JJ l Hl Hf) as ((B1 & _) & _). apply (B1 M).
      * destruct (RC _ _ _ X) as [(-> & EU & A1 & A2 & A3)|(-> & A1 & A2 & A3)].
        -- exists LNorm, s'. split; auto. left. split; auto. split; auto. split; auto. congruence.
        -- exists LRet, s'. split; auto.
    + destruct X as [-> AG]. exists LRet, s'. auto.
  - intros E. apply T. destruct out; auto. discriminate.
Qed.

(** ** Varying operand *)

(** Does some label of [ss] stand for the value? *)
Fixpoint matches_some (cases : list Z) (v : Z) (ss : secs) : bool :=
  match ss with
  | SNil => false
  | SSec lbl _ r => label_matches cases lbl v || matches_some cases v r
  end.

(** No value is matched by two labels. *)
Fixpoint uniq (cases : list Z) (ss : secs) : Prop :=
  match ss with
  | SNil => True
  | SSec lbl _ r => (forall v, label_matches cases lbl v = true -> matches_some cases v r = false) /\ uniq cases r
  end.

Definition target (cases : list Z) (v : Z) (ss : secs) : secs :=
  match sections_from (fun lb => label_matches cases lb v) ss with Some r => r | None => SNil end.

Lemma existsb_eq (v : Z) l : existsb (fun c => (v =? c)%Z) l = true <-> In v l.
Proof.
  rewrite existsb_exists. split.
  - intros (x & H1 & H2). apply Z.eqb_eq in H2. subst; auto.
  - intros H. exists v. split; auto. apply Z.eqb_refl.
Qed.

Lemma matches_cases cases v ss :
  (forall c, In c (case_values ss) -> In c cases) ->
  matches_some cases v ss = true ->
  In v (case_values ss) \/ (~ In v cases /\ 0 < defaults ss).
Proof.
  induction ss as [|[c|] b r IH]; cbn [matches_some label_matches case_values defaults]; intros HI H.
  - discriminate.
  - apply orb_prop in H as [H|H].
    + apply Z.eqb_eq in H. subst. left; left; auto.
    + destruct IH as [X|X]; auto.
      * intros; apply HI; right; auto.
      * left; right; auto.
  - apply orb_prop in H as [H|H].
    + right. split; [|lia]. intros X. apply existsb_eq in X. rewrite X in H. discriminate.
    + destruct IH as [X|[X1 X2]]; auto.
Qed.

Lemma uniq_ok cases ss :
  (forall c, In c (case_values ss) -> In c cases) ->
  nodupZ (case_values ss) = true -> defaults ss <= 1 -> uniq cases ss.
Proof.
  induction ss as [|[c|] b r IH]; cbn [uniq case_values nodupZ defaults]; intros HI HN HD; auto.
  - apply andb_prop in HN as [HN1 HN2]. split.
    + intros v Hv. cbn [label_matches] in Hv. apply Z.eqb_eq in Hv. subst v.
      destruct (matches_some cases c r) eqn:E; auto.
      apply matches_cases in E; [|intros; apply HI; right; auto].
      destruct E as [E|[E _]].
      * apply existsb_eq in E. assert (X : existsb (Z.eqb c) (case_values r) = true) by exact E.
        rewrite X in HN1. discriminate.
      * exfalso. apply E, HI. left; auto.
    + apply IH; auto. intros; apply HI; right; auto.
  - split; [|apply IH; auto; lia].
    intros v Hv. cbn [label_matches] in Hv. apply negb_true_iff in Hv.
    destruct (matches_some cases v r) eqn:E; auto.
    apply matches_cases in E; auto. destruct E as [E|[_ E]]; [|lia].
    apply HI, existsb_eq in E. congruence.
Qed.

Lemma target_none cases v ss : matches_some cases v ss = false -> target cases v ss = SNil.
Proof.
  unfold target. intros H.
  assert (X : sections_from (fun lb => label_matches cases lb v) ss = None).
  { induction ss as [|lb b r IH]; cbn [sections_from matches_some] in *; auto.
    apply orb_false_iff in H as [-> H]. auto. }
  rewrite X; auto.
Qed.

Lemma scalar_target_eq v ss : scalar_target v ss = target (case_values ss) v ss.
Proof.
  unfold scalar_target, target.
  assert (E : forall cases ss, (forall c, In c (case_values ss) -> In c cases) ->
     sections_from (fun lb => label_matches cases lb v) ss =
     (if existsb (fun c => (v =? c)%Z) cases
      then sections_from (fun l => match l with Some c => (v =? c)%Z | None => false end) ss
      else sections_from (fun l => match l with None => true | Some _ => false end) ss)).
  { intros cases ss0. induction ss0 as [|[c|] b r IH]; cbn [sections_from label_matches case_values]; intros HI.
    - destruct (existsb _ _); auto.
    - rewrite IH by (intros; apply HI; right; auto).
      destruct (existsb (fun c => (v =? c)%Z) cases) eqn:EX.
      + destruct (v =? c)%Z; auto.
      + destruct (v =? c)%Z eqn:Ev; auto. apply Z.eqb_eq in Ev. subst v.
        assert (X : existsb (fun c0 => (c =? c0)%Z) cases = true) by (apply existsb_eq, HI; left; auto).
        congruence.
    - rewrite IH by auto. destruct (existsb (fun c => (v =? c)%Z) cases) eqn:EX; auto. }
  rewrite (E (case_values ss) ss) by auto.
  destruct (existsb (fun c => (v =? c)%Z) (case_values ss)) eqn:EX.
  - apply existsb_eq in EX.
    destruct (sections_from _ ss) eqn:ES; auto. exfalso.
    induction ss as [|[c|] b r IH]; cbn [case_values sections_from] in *; auto.
    + destruct (v =? c)%Z eqn:Ev; [discriminate|]. destruct EX as [->|EX].
      * rewrite Z.eqb_refl in Ev. discriminate.
      * apply IH; auto.
  - assert (X : sections_from (fun l => match l with Some c => (v =? c)%Z | None => false end) ss = None).
    { clear E. induction ss as [|[c|] b r IH]; cbn [case_values sections_from existsb] in *; auto.
      apply orb_false_iff in EX as [-> EX]. auto. }
    rewrite X; auto.
Qed.

(** From the start of the remaining sections to the end of the switch.  A lane is running
    (mask on), waiting (it will match a later label) or done. *)
Lemma c_switch_eq v ss : c_switch v ss = scalar_target v ss.
Proof.
  assert (C : forall s, case_section v s =
      sections_from (fun l => match l with Some c => (v =? c)%Z | None => false end) s).
  { induction s as [|[c|] b r IH]; cbn; auto. destruct (v =? c)%Z; auto. }
  assert (D : forall s, default_section s =
      match sections_from (fun l => match l with None => true | Some _ => false end) s with
      | Some r => r | None => SNil end).
  { induction s as [|[c|] b r IH]; cbn; auto. }
  unfold c_switch, scalar_target. rewrite C, D. reflexivity.
Qed.

Definition waiting (saved : mask) (v : lane -> Z) cases ss (l : lane) : bool :=
  saved l && matches_some cases (v l) ss.

Definition spost (w : nat) dv du d F k (D : scope) (c : cx) (saved : mask) (v : lane -> Z) (cases : list Z)
    (ss : secs) (st : vst) (out : vout) (st' : vst) (R : lane -> secs -> lst -> option (lout * lst)) : Prop :=
  uframe du d F st st' /\
  (forall l, l < w -> c_fm c l = false -> gframe l st st') /\
  (forall l, l < w -> c_fm c l = true -> v_mask st l = false -> waiting saved v cases ss l = false ->
     framex out dv d F l st st') /\
  (forall l, l < w -> c_fm c l = true -> v_mask st l = true -> forall s, agree l D st s ->
     exists ol s', R l ss s = Some (ol, s') /\ outrel (Some k) out ol l D st' s') /\
  (forall l, l < w -> c_fm c l = true -> waiting saved v cases ss l = true -> forall s, agree l D st s ->
     exists ol s', R l (target cases (v l) ss) s = Some (ol, s') /\ outrel (Some k) out ol l D st' s') /\
  (out = VNorm -> inv w (Some k) d c st') /\
  (out = VBrk \/ out = VCont -> jumped w (Some k) c st') /\
  (out = VBrk -> forall k', Some k = Some k' -> k_hasc k' = false) /\
  (out = VCont -> forall k', Some k = Some k' -> k_loop k' = true) /\
  (out = VRet -> forall l, l < w -> c_fm c l = true ->
     v_mask st l = true \/ v_ret st l = true \/ waiting saved v cases ss l = true).

Definition Psecs (o : opts) (n : nat) : Prop :=
  forall dv du k d F D c saved v cases ss st out st',
    vsecs n o c saved v cases ss st = Some (out, st') ->
    chk_secs dv du (Some k) d F D ss = true -> uniq cases ss ->
    k_sc k = false -> k_loop k = false -> 
    ctxrel dv (Some k) d c -> kcond dv du d F (Some k) -> kscope (Some k) D ->
    scope_ok dv du d D -> scope_pres dv du d F D -> 0 < d ->
    inv (o_width o) (Some k) d c st ->
    (forall l, l < o_width o -> c_fm c l = true -> waiting saved v cases ss l = true ->
       v_mask st l = false /\ v_brk st l = false /\ v_cnt st l = false /\ v_ret st l = false /\ c_be c l = true) ->
    spost (o_width o) dv du d F k D c saved v cases ss st out st' (fun l ss0 s => lrun n (o_funs o) l ss0 s).

Lemma Psecs_S o n : Pexec o n -> Psecs o n -> Psecs o (S n).
Proof.
  intros IHe IHs dv du k d F D c saved v cases ss st out st' HE HC HU KS KL HX HK HKS HO HP H0 HI HW.
  destruct ss as [|lb body r]; cbn [vsecs] in HE.
  - injection HE as <- <-.
    split; [apply uframe_refl|]. split; [intros; apply gframe_refl|].
    split; [intros; split; auto; apply frame0_refl|].
    split; [intros l Hl Hf Hm s Hs; exists LNorm, s; split; auto; left; auto|].
    split; [intros l Hl Hf Hm; unfold waiting in Hm; cbn in Hm; rewrite andb_false_r in Hm; discriminate|].
    split; [auto|]. split; [intros [X|X]; discriminate|]. repeat split; discriminate.
  - rewrite chk_secs_cons in HC. apply andb_prop in HC as [HC1 HC2].
    destruct (chk dv du (Some k) d F D body) as [D1|] eqn:EC; [|discriminate HC1].
    cbn [uniq] in HU. destruct HU as [HU1 HU2].
    set (m := mor (v_mask st) (mand saved (fun l => label_matches cases lb (v l)))) in *.
    set (st1 := set_mask m st) in *.
    (* classification of lanes at this label *)
    assert (CL : forall l, l < o_width o -> c_fm c l = true ->
        (v_mask st l = true /\ m l = true /\ waiting saved v cases (SSec lb body r) l = false /\ waiting saved v cases r l = false) \/
        (v_mask st l = false /\ m l = true /\ waiting saved v cases (SSec lb body r) l = true /\ waiting saved v cases r l = false /\
         target cases (v l) (SSec lb body r) = SSec lb body r) \/
        (v_mask st l = false /\ m l = false /\ waiting saved v cases (SSec lb body r) l = true /\ waiting saved v cases r l = true /\
         target cases (v l) (SSec lb body r) = target cases (v l) r) \/
        (v_mask st l = false /\ m l = false /\ waiting saved v cases (SSec lb body r) l = false /\ waiting saved v cases r l = false)).
    { intros l Hl Hf. specialize (HW l Hl Hf). specialize (HU1 (v l)).
      unfold waiting, m, mor, mand, target in *. cbn [matches_some sections_from] in *.
      destruct (v_mask st l), (saved l), (label_matches cases lb (v l)), (matches_some cases (v l) r); cbn in *;
        try (destruct (HW eq_refl) as (X & _); discriminate X);
        try (specialize (HU1 eq_refl); discriminate HU1); auto 10. }
    assert (F01 : forall l, frame0 dv d F l st st1) by (intros; repeat split; auto).
    assert (U01 : uframe du d F st st1) by (intros x _; auto).
    assert (AG1 : forall l D0 s, agree l D0 st s -> agree l D0 st1 s) by (intros; auto).
    assert (HI1 : inv (o_width o) (Some k) d c st1).
    { intros l Hl Hf. destruct (HI l Hl Hf) as ((B1 & B2) & W2 & W3 & W4). specialize (HW l Hl Hf).
      assert (X : m l = true -> v_brk st l = false /\ v_cnt st l = false /\ v_ret st l = false /\ c_be c l = true).
      { destruct (CL l Hl Hf) as [(A1 & A2 & A3 & A4)|[(A1 & A2 & A3 & A4 & A5)|[(A1 & A2 & _)|(A1 & A2 & _)]]];
          try congruence; intros _.
        - destruct (B1 A1) as (Z1 & Z2 & Z3); auto.
        - destruct (HW A3) as (_ & Z); tauto. }
      split; [split|split].
      - cbn. intros Y. destruct (X Y) as (Z1 & Z2 & Z3 & _); auto.
      - exact B2.
      - lia.
      - split; [intros Y; apply X; exact Y|]. rewrite KS, KL. discriminate. }
    destruct (check_mask o body && negb (m_any (o_width o) m)) eqn:ECK.
    + (* no lane is running: skip to the next label *)
      apply andb_prop in ECK as [_ ECK]. apply negb_true_iff in ECK. rewrite m_any_false in ECK.
      assert (HW1 : forall l, l < o_width o -> c_fm c l = true -> waiting saved v cases r l = true ->
         v_mask st1 l = false /\ v_brk st1 l = false /\ v_cnt st1 l = false /\ v_ret st1 l = false /\ c_be c l = true).
      { intros l Hl Hf Hw. split; [exact (ECK l Hl)|].
        destruct (CL l Hl Hf) as [(A1 & A2 & A3 & A4)|[(A1 & A2 & A3 & A4 & _)|[(A1 & A2 & A3 & A4 & _)|(A1 & A2 & A3 & A4)]]];
          try congruence. exact (proj2 (HW l Hl Hf A3)). }
      destruct (IHs dv du k d F D c saved v cases r st1 out st' HE HC2 HU2 KS KL HX HK HKS HO HP H0 HI1 HW1)
        as (U & G & Fr & Ac & Wt & I & J & B & L & T).
      split; [exact U|]. split; [exact G|].
      split; [|split; [|split; [|split; [exact I|split; [exact J|split; [exact B|split; [exact L|]]]]]]].
      * intros l Hl Hf Hm Hw. apply (Fr l Hl Hf); [exact (ECK l Hl)|].
        destruct (CL l Hl Hf) as [(A1 & A2 & A3 & A4)|[(A1 & A2 & A3 & A4 & _)|[(A1 & A2 & A3 & A4 & _)|(A1 & A2 & A3 & A4)]]]; congruence.
      * intros l Hl Hf Hm. exfalso. specialize (ECK l Hl). unfold m, mor in ECK. rewrite Hm in ECK. discriminate.
      * intros l Hl Hf Hw s Hs.
        destruct (CL l Hl Hf) as [(A1 & A2 & A3 & A4)|[(A1 & A2 & A3 & A4 & A5)|[(A1 & A2 & A3 & A4 & A5)|(A1 & A2 & A3 & A4)]]];
          try congruence.
        -- rewrite (ECK l Hl) in A2. discriminate.
        -- destruct (Wt l Hl Hf A4 s Hs) as (ol & s' & E & X). exists ol, s'. split; auto.
           rewrite A5. apply lrun_S; auto.
      * intros E l Hl Hf. destruct (T E l Hl Hf) as [X|[X|X]]; auto.
        -- cbn in X. rewrite (ECK l Hl) in X. discriminate.
        -- right. right.
           destruct (CL l Hl Hf) as [(A1 & A2 & A3 & A4)|[(A1 & A2 & A3 & A4 & A5)|[(A1 & A2 & A3 & A4 & A5)|(A1 & A2 & A3 & A4)]]];
             congruence.
    + destruct (vexec n o c body st1) as [[out1 st2]|] eqn:E1; [|discriminate].
      pose proof (IHe dv du (Some k) d F D D1 c body st1 out1 st2 E1 EC HX HK HKS HO HI1) as P1.
      assert (P1' : post (o_width o) dv du (Some k) d F D D c st1 out1 st2 (fun l s0 => lexec n (o_funs o) l body s0)).
      { eapply post_scope; [apply scope_le_refl|eapply chk_le; eauto|exact P1]. }
      clear P1. destruct P1' as (U & G & Fr & Ac & I & J & B & L & T).
      (* lanes that are in the middle of the switch when this section starts *)
      assert (RUN : forall l, l < o_width o -> c_fm c l = true -> m l = true -> forall s, agree l D st s ->
                exists ol s', lexec n (o_funs o) l body s = Some (ol, s') /\ outrel (Some k) out1 ol l D st2 s').
      { intros l Hl Hf Hm s Hs. apply (Ac l Hl Hf Hm s Hs). }
      assert (CASE : (out1 <> VNorm /\ out1 = out /\ st2 = st') \/ out1 = VNorm).
      { destruct out1; auto; injection HE as <- <-; left; split; auto; discriminate. }
      destruct CASE as [(NN & -> & ->)| -> ].
      * (* jump out of the switch *)
        assert (NW : forall l, l < o_width o -> c_fm c l = true -> waiting saved v cases r l = true -> False).
        { intros l Hl Hf Hw.
          destruct (CL l Hl Hf) as [(A1 & A2 & A3 & A4)|[(A1 & A2 & A3 & A4 & _)|[(A1 & A2 & A3 & A4 & _)|(A1 & A2 & A3 & A4)]]];
            try congruence.
          destruct (HW l Hl Hf A3) as (Z0 & Z1 & Z2 & Z3 & Z4).
          pose proof (Fr l Hl Hf A2) as X.
          assert (JJ : out = VBrk \/ out = VCont -> False).
          { intros HJ. destruct (J HJ) as (k' & Ek & JJ). destruct (JJ l Hl Hf) as [_ J']. specialize (J' Z4).
            assert (Fx : frame dv d F l st1 st') by (destruct HJ; subst out; exact X).
            destruct Fx as (M & P1 & P2 & P3 & _). cbn in P1, P2, P3. destruct J' as [J'|[J'|[J'|J']]]; congruence. }
          destruct out; auto.
          destruct (T eq_refl l Hl Hf) as [Y|Y]; cbn in Y; congruence. }
        assert (RS : forall l s ol s', lexec n (o_funs o) l body s = Some (ol, s') ->
                   outrel (Some k) out ol l D st' s' -> lrun (S n) (o_funs o) l (SSec lb body r) s = Some (ol, s')).
        { intros l s ol s' E X. cbn [lrun]. rewrite E. destruct ol; auto. exfalso.
          destruct out; cbn [outrel] in X; try congruence.
          - destruct X as [(X & _)|[[_ X] _]]; [discriminate|destruct X].
          - destruct X as [(X & _)|[_ X]]; [discriminate|destruct X].
          - destruct X; discriminate. }
        split; [exact U|]. split; [exact G|].
        split; [|split; [|split; [|split; [|split; [exact J|split; [exact B|split; [exact L|]]]]]]].
        -- intros l Hl Hf Hm Hw. apply (Fr l Hl Hf). change (m l = false).
           destruct (CL l Hl Hf) as [(A1 & A2 & A3 & A4)|[(A1 & A2 & A3 & A4 & _)|[(A1 & A2 & A3 & A4 & _)|(A1 & A2 & A3 & A4)]]]; congruence.
        -- intros l Hl Hf Hm s Hs.
           assert (Hm1 : m l = true) by (unfold m, mor; rewrite Hm; auto).
           destruct (RUN l Hl Hf Hm1 s Hs) as (ol & s' & E & X). exists ol, s'. split; [eapply RS; eauto|auto].
        -- intros l Hl Hf Hw s Hs.
           destruct (CL l Hl Hf) as [(A1 & A2 & A3 & A4)|[(A1 & A2 & A3 & A4 & A5)|[(A1 & A2 & A3 & A4 & A5)|(A1 & A2 & A3 & A4)]]];
             try congruence.
           ++ rewrite A5. destruct (RUN l Hl Hf A2 s Hs) as (ol & s' & E & X). exists ol, s'. split; [eapply RS; eauto|auto].
           ++ exfalso. eauto.
        -- congruence.
        -- intros E l Hl Hf. destruct (T E l Hl Hf) as [X|X]; auto.
           destruct (CL l Hl Hf) as [(A1 & A2 & A3 & A4)|[(A1 & A2 & A3 & A4 & A5)|[(A1 & A2 & A3 & A4 & A5)|(A1 & A2 & A3 & A4)]]]; auto.
           exfalso. cbn in X. congruence.
      * (* fall through to the next section *)
        assert (WF : forall l, l < o_width o -> c_fm c l = true -> m l = false -> frame dv d F l st1 st2).
        { intros l Hl Hf Hm. exact (Fr l Hl Hf Hm). }
        assert (HW2 : forall l, l < o_width o -> c_fm c l = true -> waiting saved v cases r l = true ->
           v_mask st2 l = false /\ v_brk st2 l = false /\ v_cnt st2 l = false /\ v_ret st2 l = false /\ c_be c l = true).
        { intros l Hl Hf Hw.
          destruct (CL l Hl Hf) as [(A1 & A2 & A3 & A4)|[(A1 & A2 & A3 & A4 & A5)|[(A1 & A2 & A3 & A4 & A5)|(A1 & A2 & A3 & A4)]]];
            try congruence.
          destruct (HW l Hl Hf A3) as (Z0 & Z1 & Z2 & Z3 & Z4).
          destruct (WF l Hl Hf A2) as (M & P1 & P2 & P3 & _). cbn in P1, P2, P3.
          repeat split; congruence. }
        destruct (IHs dv du k d F D c saved v cases r st2 out st' HE HC2 HU2 KS KL HX HK HKS HO HP H0 (I eq_refl) HW2)
          as (U2 & G2 & Fr2 & Ac2 & Wt2 & I2 & J2 & B2 & L2 & T2).
        assert (RR : forall l s, l < o_width o -> c_fm c l = true -> m l = true -> waiting saved v cases r l = false ->
                   agree l D st s ->
                   exists ol s', lrun (S n) (o_funs o) l (SSec lb body r) s = Some (ol, s') /\
                     outrel (Some k) out ol l D st' s').
        { intros l s Hl Hf Hm Hw Hs. destruct (RUN l Hl Hf Hm s Hs) as (ol & s1 & E & X).
          cbn [lrun]. rewrite E. destruct X as [(-> & M & AG)|[M R0]].
          - exact (Ac2 l Hl Hf M s1 AG).
          - exists ol, s1. split; [destruct ol; auto; destruct R0|].
            pose proof (Fr2 l Hl Hf M Hw) as FX.
            destruct out; cbn [outrel]; cbn [framex] in FX.
            + right. destruct FX. split; auto. eapply rec0_frame; eauto.
            + right. destruct FX. split; [split; auto; eapply rec0_frame; eauto|].
              intros ->. destruct R0 as (k' & EK & _ & HC' & _).
              rewrite (B2 eq_refl k' EK) in HC'. discriminate.
            + right. destruct FX. split; auto. eapply rec0_frame; eauto.
            + assert (Hr : v_ret st2 l = true).
              { destruct (T2 eq_refl l Hl Hf) as [Y|[Y|Y]]; auto; congruence. }
              destruct ol; cbn [rec0] in R0.
              * destruct R0.
              * destruct R0 as (k' & _ & _ & _ & _ & Y & _). congruence.
              * destruct R0 as (k' & _ & _ & _ & _ & _ & Y & _). congruence.
              * split; auto. eapply (framex_agreeG VRet dv d F); [exact FX|]. apply R0. }
        split; [eapply uframe_trans; [exact U|exact U2]|].
        split; [intros l Hl Hf; eapply gframe_trans; [exact (G l Hl Hf)|auto]|].
        split; [|split; [|split; [|split; [exact I2|split; [exact J2|split; [exact B2|split; [exact L2|]]]]]]].
        -- intros l Hl Hf Hm Hw.
           destruct (CL l Hl Hf) as [(A1 & A2 & A3 & A4)|[(A1 & A2 & A3 & A4 & A5)|[(A1 & A2 & A3 & A4 & A5)|(A1 & A2 & A3 & A4)]]];
             try congruence.
           destruct (WF l Hl Hf A2) as [M FF].
           eapply framex_trans; [apply F01|]. eapply framex_trans; [exact FF|]. apply Fr2; auto.
        -- intros l Hl Hf Hm s Hs.
           destruct (CL l Hl Hf) as [(A1 & A2 & A3 & A4)|[(A1 & A2 & A3 & A4 & A5)|[(A1 & A2 & A3 & A4 & A5)|(A1 & A2 & A3 & A4)]]];
             try congruence.
           apply RR; auto.
        -- intros l Hl Hf Hw s Hs.
           destruct (CL l Hl Hf) as [(A1 & A2 & A3 & A4)|[(A1 & A2 & A3 & A4 & A5)|[(A1 & A2 & A3 & A4 & A5)|(A1 & A2 & A3 & A4)]]];
             try congruence.
           ++ rewrite A5. apply RR; auto.
           ++ rewrite A5. destruct (WF l Hl Hf A2) as [M FF].
              assert (AG2 : agree l D st2 s).
              { eapply agree_frame; [exact FF|exact U|exact HP|]. apply AG1; auto. }
              destruct (Wt2 l Hl Hf A4 s AG2) as (ol & s' & E & X). exists ol, s'. split; auto. apply lrun_S; auto.
        -- intros E l Hl Hf.
           destruct (CL l Hl Hf) as [(A1 & A2 & A3 & A4)|[(A1 & A2 & A3 & A4 & A5)|[(A1 & A2 & A3 & A4 & A5)|(A1 & A2 & A3 & A4)]]]; auto.
           destruct (WF l Hl Hf A2) as (M & _ & _ & P3 & _). cbn in P3.
           destruct (T2 E l Hl Hf) as [Y|[Y|Y]]; [congruence|right; left; congruence|congruence].
Qed.

(** A switch with a varying operand as a whole. *)
Lemma lpost_vswitch o n dv du d F k D c v ss st out st' :
  Psecs o n -> 
  vsecs n o c (v_mask st) v (case_values ss) ss (set_mask all_off (set_bc all_off all_off st)) = Some (out, st') ->
  chk_secs dv du (Some k) d F D ss = true -> uniq (case_values ss) ss ->
  k_sc k = false -> k_loop k = false -> k_hasc k = false -> k_uni k = false -> k_db k = D ->
  ctxrel dv (Some k) d c -> kcond dv du d F (Some k) -> kscope (Some k) D ->
  scope_ok dv du d D -> scope_pres dv du d F D -> 0 < d ->
  (forall l, l < o_width o -> c_fm c l = true -> v_mask st l = true -> v_ret st l = false) ->
  (forall l, l < o_width o -> c_fm c l = true -> c_be c l = v_mask st l) ->
  (out = VNorm \/ out = VBrk \/ out = VRet) /\
  lpost (o_width o) dv du d F false D D c (set_bc all_off all_off st) (match out with VBrk => VNorm | x => x end) st'
    (fun l s => swout (lrun n (o_funs o) l (scalar_target (v l) ss) s)).
Proof.
  intros IH HE HC HU KS KL KH KU KD HX HK HKS HO HP H0 HR HB.
  set (st0 := set_bc all_off all_off st) in *. set (sa := set_mask all_off st0) in *.
  assert (HI : inv (o_width o) (Some k) d c sa).
  { intros l Hl Hf. split; [split; [discriminate|]|split; [lia|]].
    - cbn. auto.
    - split; [discriminate|]. rewrite KS, KL. discriminate. }
  assert (HW : forall l, l < o_width o -> c_fm c l = true -> waiting (v_mask st) v (case_values ss) ss l = true ->
       v_mask sa l = false /\ v_brk sa l = false /\ v_cnt sa l = false /\ v_ret sa l = false /\ c_be c l = true).
  { intros l Hl Hf Hw. unfold waiting in Hw. apply andb_prop in Hw as [Hw _]. cbn.
    rewrite HB, HR; auto. }
  destruct (IH dv du k d F D c (v_mask st) v (case_values ss) ss sa out st' HE HC HU KS KL HX HK HKS HO HP H0 HI HW)
    as (U & G & Fr & Ac & Wt & I & J & B & L & T).
  assert (O : out = VNorm \/ out = VBrk \/ out = VRet).
  { destruct out; auto. specialize (L eq_refl k eq_refl). congruence. }
  split; auto.
  assert (N : exists n', n = S n'). { destruct n; [discriminate HE|eauto]. }
  destruct N as [n' EN].
  split; [|split; [|split; [|split; [|split]]]].
  - destruct O as [ -> | [ -> | -> ] ]; auto.
  - exact U.
  - exact G.
  - intros l Hl Hf Hm. assert (Hw : waiting (v_mask st) v (case_values ss) ss l = false).
    { unfold waiting. cbn in Hm. rewrite Hm; auto. }
    pose proof (Fr l Hl Hf eq_refl Hw) as X. destruct out; exact X.
  - intros l Hl Hf Hm s Hs. rewrite scalar_target_eq. cbn in Hm.
    destruct (waiting (v_mask st) v (case_values ss) ss l) eqn:Hw.
    + destruct (Wt l Hl Hf Hw s Hs) as (ol & s' & E & X). rewrite E.
      assert (RC : forall ol, rec (Some k) ol l st' s' ->
            (ol = LBrk /\ v_mask st' l = false /\ v_ret st' l = false /\ agree l D st' s') \/
            (ol = LRet /\ v_mask st' l = false /\ v_ret st' l = true /\ agreeG l st' s')).
      { intros ol' [M R0]. destruct ol'; cbn [rec0] in R0; try tauto.
        - destruct R0 as (k' & Ek & EU & Z1 & Z2 & Z3 & AG). injection Ek as <-. left. rewrite KD in AG. auto.
        - destruct R0 as (k' & Ek & EU & EH & _). injection Ek as <-. congruence. }
      destruct O as [ -> | [ -> | -> ] ]; cbn [outrel] in X.
      * destruct X as [(-> & M & AG)|X].
        -- exists LNorm, s'. split; auto. left. split; auto. split; auto.
           destruct (I eq_refl l Hl Hf) as ((B1 & _) & _). apply (B1 M).
        -- destruct (RC _ X) as [(-> & A1 & A2 & A3)|(-> & A1 & A2 & A3)].
           ++ exists LNorm, s'. split; auto. left. split; auto. split; auto. split; auto. congruence.
           ++ exists LRet, s'. split; auto.
      * destruct X as [(-> & M & k' & Ek & AG)|[X _]].
        -- injection Ek as <-. rewrite KD in AG. exists LNorm, s'. split; auto. left. split; auto. split; auto.
           destruct (J (or_introl eq_refl)) as (k' & _ & JJ). destruct (JJ l Hl Hf) as ((B1 & _) & _). apply (B1 M).
        -- destruct (RC _ X) as [(-> & A1 & A2 & A3)|(-> & A1 & A2 & A3)].
           ++ exists LNorm, s'. split; auto. left. split; auto. split; auto. split; auto. congruence.
           ++ exists LRet, s'. split; auto.
      * destruct X as [-> AG]. exists LRet, s'. auto.
    + exists LNorm, s. unfold waiting in Hw. rewrite Hm in Hw. cbn in Hw.
      rewrite (target_none _ _ _ Hw). subst n. split; [reflexivity|].
      assert (Hw' : waiting (v_mask st) v (case_values ss) ss l = false).
      { unfold waiting. rewrite Hm; auto. }
      pose proof (Fr l Hl Hf eq_refl Hw') as X.
      assert (OK : frame dv d F l sa st' ->
               LNorm = LNorm /\ v_ret st' l = false /\ (false = true -> v_mask st' l = true) /\ agree l D st' s).
      { intros [M Y]. split; auto. split.
        - destruct Y as (_ & _ & P3 & _). rewrite P3. cbn. apply HR; auto.
        - split; [discriminate|]. eapply agree_frame; [exact Y|exact U|exact HP|exact Hs]. }
      destruct O as [ -> | [ -> | -> ] ].
      * left. apply OK, X.
      * left. apply OK, X.
      * exfalso. destruct (T eq_refl l Hl Hf) as [Y|[Y|Y]]; [discriminate| |congruence].
        cbn in Y. rewrite HR in Y; auto. discriminate.
  - intros E l Hl Hf. assert (E' : out = VRet) by (destruct out; auto; discriminate).
    destruct (T E' l Hl Hf) as [X|[X|X]].
    + discriminate.
    + right. exact X.
    + left. unfold waiting in X. apply andb_prop in X. tauto.
Qed.
