(** If the instances of the lanes that are on terminate, so does the gang, and every effect
    has a lane that is on. *)
From Coq Require Import ZArith List Bool Arith Lia.
From Verif Require Import Bits SpmdModel SpmdSpec SpmdRel SpmdProofs SpmdIf SpmdLoop SpmdSwitch SpmdMain SpmdCall.
From Verif Require Import SpmdGuard SpmdLive SpmdLive2 SpmdLive3 SpmdLive4 SpmdLive5.
Import ListNotations.

Definition lanes (w : nat) (D : scope) (c : cx) (st : vst) (Q : lane -> lst -> Prop) : Prop :=
  forall l, l < w -> c_fm c l = true -> v_mask st l = true -> exists s, agree l D st s /\ Q l s.

Definition ends (w : nat) (f : nat -> option (vout * vst)) : Prop :=
  exists N out st', f N = Some (out, st') /\ live w (v_tr st').

(** The functions that may be called pass the check for any non-empty mask. *)
Definition closed (o : opts) (fa : gcx) : Prop :=
  forall f fd, g_ok fa f = true -> nth_error (o_funs o) f = Some fd ->
    guarded_fun {| g_on := false; g_ok := g_ok fa |} fd = true.

Definition Rexec (o : opts) (n : nat) : Prop :=
  forall dv du K d F D D' c s st fa nr ne jb jd,
    closed o fa -> chk dv du K d F D s = Some D' -> ctxrel dv K d c -> kcond dv du d F K -> kscope K D -> scope_ok dv du d D ->
    inv (o_width o) K d c st -> guarded fa nr ne jb jd d s = true -> flg (o_width o) fa nr jb jd K c st ->
    (nr = true -> mret (0 <? d) s = false) -> (ne = true -> some (o_width o) c st) -> live (o_width o) (v_tr st) ->
    lanes (o_width o) D c st (fun l s0 => lexec n (o_funs o) l s s0 <> None) ->
    ends (o_width o) (fun N => vexec N o c s st).

Lemma flg_none w fa nr jb jb' jd K K' c c' st st' :
  flg w fa nr jb jd K c st -> c_fm c' = c_fm c -> v_ret st' = v_ret st -> jok jb' c' ->
  flg w fa nr jb' None K' c' st'.
Proof.
  intros (F1 & F2 & _ & _ & F5) E1 E2 J. unfold flg. rewrite E1, E2. split; auto. split; auto. split; auto. split; auto.
  discriminate.
Qed.

Lemma flg_exec0 n o fa nr jb jd K d c s st out st' :
  vexec n o c s st = Some (out, st') -> vdepth (c_cf c) = d -> (nr = true -> mret (0 <? d) s = false) ->
  flg (o_width o) fa nr jb jd K c st -> flg (o_width o) fa nr jb None K c st'.
Proof.
  intros H VD HM (F1 & F2 & F3 & F4 & F5).
  split; [auto|]. split; [|split; [auto|split; [discriminate|eapply unret_exec; eauto]]].
  intros N. rewrite (proj1 (noret n) _ _ _ _ _ _ (0 <? d) H); auto. rewrite VD. intros X. apply Nat.ltb_ge in X. lia.
Qed.

(** Entering one side of a varying `if`. *)
Lemma flg_side w fa nr jb jd K c st m :
  flg w fa nr jb jd K c st ->
  (forall k l, K = Some k -> l < w -> c_fm c l = true -> m l = true -> c_be c l = true) ->
  flg w fa nr false jd K (push_if false c) (set_mask m st).
Proof.
  intros (F1 & F2 & _ & F4 & F5) HM. split; [auto|]. split; [auto|]. split; [apply jok_false|]. split; [|auto].
  intros dl E. destruct (F4 dl E) as (N & P & k & EK & K1 & K2 & K3 & B & Q & J). split; auto. split; auto.
  exists k. split; auto. split; auto. split; auto. split; auto. split; auto. split; auto.
  intros l W F. destruct (Q l W F) as [Q1 Q2]. split; auto. cbn. intros [X|X]; [eapply HM; eauto|auto].
Qed.

Lemma flg_mask_back w fa nr jb jb' jd K c st m :
  flg w fa nr jb' jd K (push_if false c) st -> jok jb c ->
  (forall k l, K = Some k -> l < w -> c_fm c l = true -> m l = true -> c_be c l = true) ->
  flg w fa nr jb jd K c (set_mask m st).
Proof.
  intros (F1 & F2 & _ & F4 & F5) HJ HM. split; [auto|]. split; [auto|]. split; [auto|]. split; [|auto].
  intros dl E. destruct (F4 dl E) as (N & P & k & EK & K1 & K2 & K3 & B & Q & J). split; auto. split; auto.
  exists k. split; auto. split; auto. split; auto. split; auto. split; auto. split; auto.
  intros l W F. destruct (Q l W F) as [Q1 Q2]. split; auto. cbn. intros [X|X]; [eapply HM; eauto|auto].
Qed.

Lemma width_pos w fa nr jb jd K c st : flg w fa nr jb jd K c st -> 0 < w.
Proof. intros (_ & _ & _ & _ & _ & l & W & _). lia. Qed.

Lemma jd_le w fa nr jb jd dv du F K d c st :
  flg w fa nr jb jd K c st -> kcond dv du d F K -> forall dl, jd = Some dl -> dl <= d.
Proof.
  intros (_ & _ & _ & F4 & _) HK dl E. destruct (F4 dl E) as (_ & _ & k & -> & <- & _). apply HK.
Qed.

(** The lanes that are still on after a statement. *)
Lemma lanes_next o N dv du K d F D D1 c a st st1 (Q Q' : lane -> lst -> Prop) :
  vexec N o c a st = Some (VNorm, st1) ->
  post (o_width o) dv du K d F D D1 c st VNorm st1 (fun l s0 => lexec N (o_funs o) l a s0) ->
  lanes (o_width o) D c st Q ->
  (forall l s0 s1, Q l s0 -> lexec N (o_funs o) l a s0 = Some (LNorm, s1) -> Q' l s1) ->
  lanes (o_width o) D1 c st1 Q'.
Proof.
  intros E P L HQ l W Fm M. destruct (vexec_dec _ _ _ _ _ _ _ _ W Fm E) as (M0 & _). specialize (M0 M).
  destruct (L l W Fm M0) as (s0 & A & X). destruct P as (_ & _ & _ & Ac & _).
  destruct (Ac l W Fm M0 s0 A) as (ol & s1 & E1 & O). cbn [outrel] in O. destruct O as [(-> & _ & A1)|[M1 _]]; [|congruence].
  exists s1. split; auto. eapply HQ; eauto.
Qed.

Lemma ends_mono w (f g : nat -> option (vout * vst)) :
  (forall N r, f N = Some r -> exists M, g M = Some r) -> ends w f -> ends w g.
Proof. intros H (N & out & st' & E & L). destruct (H N _ E) as [M X]. exists M, out, st'. auto. Qed.

(** ** if *)

Lemma Rvif o n dv du K d F D Da Db c saved ma mb ra rb a b (t : mask) st fa nr ne1 jb jd :
  prog_ok (o_funs o) = true -> Rexec o n -> closed o fa ->
  chk dv du K (S d) F D a = Some Da -> chk dv du K (S d) F D b = Some Db ->
  ctxrel dv K d c -> kcond dv du d F K -> kscope K D -> scope_ok dv du d D -> inv (o_width o) K d c st ->
  guarded fa nr ne1 false jd (S d) a = true -> guarded fa nr ne1 false jd (S d) b = true ->
  flg (o_width o) fa nr jb jd K c st ->
  (nr = true -> mret true a = false) -> (nr = true -> mret true b = false) -> live (o_width o) (v_tr st) ->
  (ra = true -> forall l, l < o_width o -> c_fm c l = true -> ma l = v_mask st l && t l) ->
  (ra = false -> forall l, l < o_width o -> c_fm c l = true -> v_mask st l && t l = false) ->
  (rb = true -> forall l, l < o_width o -> c_fm c l = true -> mb l = v_mask st l && negb (t l)) ->
  (rb = false -> forall l, l < o_width o -> c_fm c l = true -> v_mask st l && negb (t l) = false) ->
  (ra = true -> ne1 = true -> exists l, l < o_width o /\ c_fm c l = true /\ v_mask st l && t l = true) ->
  (rb = true -> ne1 = true -> exists l, l < o_width o /\ c_fm c l = true /\ v_mask st l && negb (t l) = true) ->
  lanes (o_width o) D c st (fun l s0 => lexec n (o_funs o) l (if t l then a else b) s0 <> None) ->
  ends (o_width o) (fun N => vif N o c saved ma mb ra rb a b st).
Proof.
  intros HP IH HCL HCa HCb HX HK HKS HO HI Ga Gb HF MRa MRb LV Ha1 Ha0 Hb1 Hb0 Sa Sb LN.
  set (sa := fun l => v_mask st l && t l) in *. set (sb := fun l => v_mask st l && negb (t l)) in *.
  pose proof (ctxrel_push_if dv K d c false HX) as HX1. cbn [plus] in HX1.
  assert (HK1 : kcond dv du (S d) F K) by (eapply kcond_mono; [| |exact HK]; [lia|apply frozen_le_refl]).
  pose proof (scope_ok_mono dv du d (S d) D (Nat.le_succ_diag_r d) HO) as HO1.
  assert (HB : forall l, l < o_width o -> c_fm c l = true -> bits_ok K st l) by (intros l W Fm; apply (HI l W Fm)).
  assert (HS : forall l, l < o_width o -> c_fm c l = true -> v_mask st l = true ->
     v_brk st l = false /\ v_cnt st l = false /\ v_ret st l = false /\ match K with None => True | Some _ => c_be c l = true end).
  { intros l W Fm M. destruct (HI l W Fm) as ((B1 & _) & _ & X). destruct (B1 M) as (Y1 & Y2 & Y3).
    repeat split; auto. destruct K as [k|]; auto. apply X; auto. }
  assert (HSA : forall l, l < o_width o -> c_fm c l = true -> sa l = true ->
     v_brk st l = false /\ v_cnt st l = false /\ v_ret st l = false /\ match K with None => True | Some _ => c_be c l = true end).
  { intros l W Fm M. apply andb_prop in M as [M _]. auto. }
  assert (BE : forall k l, K = Some k -> l < o_width o -> c_fm c l = true -> v_mask st l = true -> c_be c l = true).
  { intros k l E W Fm M. destruct (HS l W Fm M) as (_ & _ & _ & X). rewrite E in X. auto. }
  (* the first side *)
  assert (A : exists N1 out1 st1,
     (if ra then vexec N1 o (push_if false c) a (set_mask ma st) else Some (VNorm, st)) = Some (out1, st1) /\
     live (o_width o) (v_tr st1) /\
     (out1 = VNorm -> flg (o_width o) fa nr false jd K (push_if false c) (set_mask (v_mask st) st1))).
  { destruct ra.
    - specialize (Ha1 eq_refl). 
      assert (HFA : flg (o_width o) fa nr false jd K (push_if false c) (set_mask ma st)).
      { eapply flg_side; eauto. intros k l E W Fm M. rewrite Ha1 in M by auto. apply andb_prop in M as [M _]. eauto. }
      destruct (IH dv du K (S d) F D Da (push_if false c) a (set_mask ma st) fa nr ne1 false jd HCL HCa HX1 HK1 HKS HO1)
        as (N1 & out1 & st1 & E1 & L1); auto.
      + eapply side_inv; eauto.
      + intros E. destruct (Sa eq_refl E) as (l & W & Fm & M). exists l. split; auto. split; auto. cbn. rewrite Ha1; auto.
      + intros l W Fm M. cbn in M. rewrite Ha1 in M by auto. apply andb_prop in M as [M T].
        destruct (LN l W Fm M) as (s0 & X & Y). rewrite T in Y. exists s0. auto.
      + exists N1, out1, st1. split; auto. split; auto. intros ->.
        assert (X : flg (o_width o) fa nr false jd K (push_if false c) st1).
        { eapply flg_exec; eauto. eapply jd_le; eauto. }
        eapply (flg_mask_back (o_width o) fa nr false false jd K (push_if false c)); [|apply jok_false|].
        * exact X.
        * intros k l E W Fm M. cbn. eauto.
    - exists 0, VNorm, st. split; auto. split; auto. intros _. eapply flg_side; eauto. }
  destruct A as (N1 & out1 & st1 & E1 & L1 & F1).
  destruct (match out1 with VNorm => true | _ => false end) eqn:ON.
  2:{ exists (S N1), out1, st1. split; auto. cbn [vif]. rewrite E1. destruct out1; auto; discriminate. }
  assert (out1 = VNorm) by (destruct out1; auto; discriminate). subst out1. clear ON. specialize (F1 eq_refl).
  assert (PA : phase (o_width o) dv du K d F D c sa st VNorm st1 (fun l s0 => lexec N1 (o_funs o) l a s0)).
  { eapply phase_run; eauto. apply (simulation o HP N1). }
  destruct PA as (U1 & _ & Fr1 & _ & I1 & _). specialize (I1 eq_refl).
  assert (NSA : forall l, sb l = true -> sa l = false).
  { intros l. unfold sa, sb. destruct (v_mask st l), (t l); auto. }
  assert (B : exists N2 out2 st2,
     (if rb then vexec N2 o (push_if false c) b (set_mask mb st1) else Some (VNorm, st1)) = Some (out2, st2) /\
     live (o_width o) (v_tr st2)).
  { destruct rb; [|exists 0, VNorm, st1; auto].
    specialize (Hb1 eq_refl).
    assert (HFB : flg (o_width o) fa nr false jd K (push_if false c) (set_mask mb st1)).
    { apply (flg_mask_back (o_width o) fa nr false false jd K (push_if false c) (set_mask (v_mask st) st1) mb);
        [exact F1|apply jok_false|].
      intros k l E W Fm M. cbn in Fm. rewrite Hb1 in M by auto. apply andb_prop in M as [M _]. cbn. eauto. }
    destruct (IH dv du K (S d) F D Db (push_if false c) b (set_mask mb st1) fa nr ne1 false jd HCL HCb HX1 HK1 HKS HO1)
      as (N2 & out2 & st2 & E2 & L2); auto.
    - eapply (side_inv _ dv du K d F c mb sb); eauto.
      intros l W Fm M. specialize (Fr1 l W Fm (NSA l M)). cbn in Fr1. destruct Fr1 as (P1 & P2 & P3 & _).
      unfold sb in M. apply andb_prop in M as [M _]. destruct (HS l W Fm M) as (Y1 & Y2 & Y3 & Y4).
      rewrite P1, P2, P3. auto.
    - intros E. destruct (Sb eq_refl E) as (l & W & Fm & M). exists l. split; auto. split; auto. cbn. rewrite Hb1; auto.
    - intros l W Fm M. cbn in M, Fm. rewrite Hb1 in M by auto. change (sb l = true) in M.
      specialize (Fr1 l W Fm (NSA l M)). cbn in Fr1.
      apply andb_prop in M as [M T]. apply negb_true_iff in T.
      destruct (LN l W Fm M) as (s0 & X & Y). rewrite T in Y. exists s0. split; auto.
      assert (Z : agree l D st1 s0) by (eapply agree_frame; [exact Fr1|exact U1|apply scope_ok_pres; exact HO|exact X]).
      exact Z.
    - exists N2, out2, st2. auto. }
  destruct B as (N2 & out2 & st2 & E2 & L2).
  assert (E1' : (if ra then vexec (N1 + N2) o (push_if false c) a (set_mask ma st) else Some (VNorm, st)) = Some (VNorm, st1)).
  { destruct ra; auto. eapply vexec_mono; [|exact E1]. lia. }
  assert (E2' : (if rb then vexec (N1 + N2) o (push_if false c) b (set_mask mb st1) else Some (VNorm, st1)) = Some (out2, st2)).
  { destruct rb; auto. eapply vexec_mono; [|exact E2]. lia. }
  exists (S (N1 + N2)). cbn [vif]. rewrite E1', E2'.
  destruct out2; do 2 eexists; (split; [reflexivity|]); auto.
  rewrite (proj2 (proj2 (proj2 (proj2 (proj2 (proj2 (proj2 (end_if_bits c saved st2)))))))). auto.
Qed.

(** ** Loops *)

Definition lguard (fa : gcx) (nr neb u : bool) (d : nat) (step body : stmt) : bool :=
  if u then
    ((d =? 0) || negb (esc true step || mret true body)) &&
    guarded fa nr true true None d step && guarded fa nr true true None d body
  else
    guarded fa nr false true None d step && guarded fa nr neb true (jdof (nr && neb) d) d body.

Definition Rtop (o : opts) (n : nat) : Prop :=
  forall dv du d F F' k D1 c u coh t step body st fa nr neb,
    closed o fa -> loop_ok o dv du d F F' k D1 c u t step body -> inv (o_width o) None d c st ->
    (u = true -> has_varying_bc false body = false) ->
    lguard fa nr neb u d step body = true -> flg (o_width o) fa nr true None None c st ->
    (nr = true -> mret (0 <? d) step = false) -> (nr = true -> mret (0 <? d) body = false) ->
    (u = true -> some (o_width o) c st) -> live (o_width o) (v_tr st) ->
    lanes (o_width o) D1 c st (fun l s0 => ltop n (o_funs o) l t step body s0 <> None) ->
    ends (o_width o) (fun N => vtop N o c u coh t step body st).

Definition Rbody (o : opts) (n : nat) : Prop :=
  forall dv du d F F' k D1 c u coh t step body st fa nr neb,
    closed o fa -> loop_ok o dv du d F F' k D1 c u t step body -> inv (o_width o) None d c st ->
    (u = true -> has_varying_bc false body = false) ->
    lguard fa nr neb u d step body = true -> flg (o_width o) fa nr true None None c st ->
    (nr = true -> mret (0 <? d) step = false) -> (nr = true -> mret (0 <? d) body = false) ->
    some (o_width o) c st -> live (o_width o) (v_tr st) ->
    lanes (o_width o) D1 c st (fun l s0 => lbody n (o_funs o) l t step body s0 <> None) ->
    ends (o_width o) (fun N => vbody N o c u coh t step body st).

Lemma Rtop_of o n : (forall m, n = S m -> Rbody o m) -> Rtop o n.
Proof.
  intros IH dv du d F F' k D1 c u coh t step body st fa nr neb HCL HL HI HU HG HF MRs MRb HS LV LN.
  pose proof HL as (L1 & L2 & L3 & L4 & L5 & L6 & L7 & L8 & L9 & L10 & L11 & L12 & L13 & L14).
  destruct u.
  - destruct (L11 eq_refl) as [e ->]. pose proof (HS eq_refl) as (l & W & Fm & M).
    destruct (LN l W Fm M) as (s0 & A & X). destruct n as [|m]; [exfalso; apply X; reflexivity|].
    destruct (teval st (TU e) 0) eqn:ET.
    + destruct (IH m eq_refl dv du d F F' k D1 c true coh (TU e) step body st fa nr neb)
        as (N & out & st' & E & LV'); auto.
      * intros l' W' Fm' M'. destruct (LN l' W' Fm' M') as (s1 & A1 & X1). exists s1. split; auto. cbn [ltop] in X1.
        rewrite <- (teval_agree l' D1 st s1 (TU e) A1 L12) in X1. change (teval st (TU e) l') with (teval st (TU e) 0) in X1.
        rewrite ET in X1. auto.
      * exists (S N), out, st'. split; auto. cbn [vtop]. rewrite ET. auto.
    + exists 1, VNorm, st. split; auto. cbn [vtop]. rewrite ET. auto.
  - set (st1 := set_mask (mand (v_mask st) (teval st t)) st).
    destruct (m_any (o_width o) (full c st1)) eqn:EA.
    + assert (SM : some (o_width o) c st1).
      { destruct (some_dec (o_width o) c st1) as [X|X]; auto. exfalso. apply m_any_true in EA as (l & W & Y).
        unfold full, mand in Y. apply andb_prop in Y as [Y Z]. rewrite (X l W Z) in Y. discriminate. }
      pose proof SM as (l & W & Fm & M). cbn in M. unfold mand in M. apply andb_prop in M as [M T].
      destruct (LN l W Fm M) as (s0 & A & X). destruct n as [|m]; [exfalso; apply X; reflexivity|].
      assert (D0 : 0 < d) by (destruct L6 as (_ & _ & _ & _ & K5); rewrite <- L3; apply K5; auto).
      destruct (IH m eq_refl dv du d F F' k D1 c false coh t step body st1 fa nr neb)
        as (N & out & st' & E & LV'); auto.
      * intros l' W' Fm'. destruct (HI l' W' Fm') as ((B1 & B2) & _). split; [split|split].
        -- cbn. unfold mand. intros Y. apply andb_prop in Y as [Y _]. auto.
        -- auto.
        -- lia.
        -- exact I.
      * eapply flg_none; [exact HF|reflexivity|reflexivity|apply HF].
      * intros l' W' Fm' M'. cbn in M'. unfold mand in M'. apply andb_prop in M' as [M' T'].
        destruct (LN l' W' Fm' M') as (s1 & A1 & X1). exists s1. split; auto. cbn [ltop] in X1.
        rewrite <- (teval_agree l' D1 st s1 t A1 L12), T' in X1. auto.
      * exists (S N), out, st'. split; auto. cbn [vtop]. fold st1. rewrite EA. auto.
    + exists 1, VNorm, st1. split; auto. cbn [vtop]. fold st1. rewrite EA. auto.
Qed.

Lemma Rbody_of o n :
  prog_ok (o_funs o) = true -> (forall m, n = S m -> Rexec o m /\ Rtop o m) -> Rbody o n.
Proof.
  intros HP IH dv du d F F' k D1 c u coh t step body st fa nr neb HCL HL HI HU HG HF MRs MRb HS LV LN.
  pose proof HL as (L1 & L2 & L3 & L4 & L5 & L6 & L7 & L8 & L9 & L10 & L11 & L12 & [Dx L13] & [Dy L14]).
  pose proof L5 as (C1 & C2 & CF & BT & CT & BL & CL & SW). rewrite L1, L2 in BL, CL. cbn in BL, CL.
  destruct n as [|n].
  { destruct HS as (l & W & Fm & M). destruct (LN l W Fm M) as (s0 & _ & X). exfalso. apply X. reflexivity. }
  destruct (IH n eq_refl) as [IHe IHt]. clear IH.
  set (c2 := set_be (full c st) c). set (sa := body_state (o_width o) c u coh st).
  destruct (body_state_eq (o_width o) c u coh st) as (S1 & S2 & S3 & S4 & S5 & S6 & S7 & S8 & S9).
  fold sa in S1, S2, S3, S4, S5, S6, S7, S8, S9.
  assert (HIA : inv (o_width o) (Some k) d c2 sa) by (apply body_start; auto).
  assert (HKS : kscope (Some k) D1).
  { cbn. split; auto. rewrite L4. apply scope_le_refl. }
  assert (SMA : some (o_width o) c2 sa).
  { destruct HS as (l & W & Fm & M). exists l. split; auto. split; auto. rewrite S1; auto. }
  (* the guards *)
  assert (GB : exists jd, guarded fa nr (if u then true else neb) true jd d body = true /\
             flg (o_width o) fa nr true jd (Some k) c2 sa).
  { unfold lguard in HG. destruct u.
    - apply andb_prop in HG as [_ HG]. exists None. split; auto. eapply flg_none; eauto. apply HF.
    - apply andb_prop in HG as [_ HG]. exists (jdof (nr && neb) d). split; auto.
      destruct HF as (Q1 & Q2 & Q3 & _ & Q5).
      split; [auto|]. split; [intros E l W Fm; rewrite S4; auto|]. split; [exact Q3|]. split; [|rewrite S4; exact Q5].
      intros dl E. destruct (nr && neb) eqn:EN; [|discriminate]. injection E as <-. apply andb_prop in EN as [-> _].
      split; auto. split. { destruct L6 as (_ & _ & _ & _ & K5). rewrite <- L3. apply K5; auto. }
      exists k. split; auto. split; auto. split; [rewrite L1; auto|]. split; auto.
      split. { intros l W. cbn. unfold full, mand. intros Y. apply andb_prop in Y. tauto. }
      split.
      + intros l W Fm. change (c_fm c l = true) in Fm. destruct (HI l W Fm) as ((_ & Z1 & Z2) & _).
        rewrite S2, S3, S4, Z1, Z2. split; [auto|]. rewrite S1 by auto. intros [Y|[Y|Y]]; try discriminate.
        cbn. unfold full, mand. rewrite Y, Fm. auto.
      + destruct HS as (l & W & Fm & M). destruct (HI l W Fm) as ((_ & Z1 & Z2) & _). exists l.
        rewrite S2, S3, S4, Z1, Z2. split; auto. split; auto. split; [cbn; unfold full, mand; rewrite M, Fm; auto|]. auto. }
  destruct GB as (jd & GB & HFB).
  assert (GS : guarded fa nr u true None d step = true).
  { unfold lguard in HG. destruct u; apply andb_prop in HG as [HG G2]; auto. apply andb_prop in HG as [_ HG]; auto. }
  destruct (IHe dv du (Some k) d F' D1 Dx c2 body sa fa nr _ true jd HCL L13 L5 L6 HKS L9 HIA GB HFB)
    as (N1 & outb & st2 & E1 & LV2); auto.
  { rewrite S9. auto. }
  { intros l W Fm M. change (c_fm c l = true) in Fm. rewrite S1 in M by auto. destruct (LN l W Fm M) as (s0 & A & X). exists s0. split.
    - unfold agree, agreeG. rewrite S5, S6, S7, S8, S9. auto.
    - intros Y. apply X. cbn [lbody]. rewrite Y. auto. }
  assert (CASE : (outb = VNorm \/ outb = VCont) \/ outb = VBrk \/ outb = VRet) by (destruct outb; auto).
  destruct CASE as [ON|ON].
  2:{ exists (S N1). cbn [vbody]. fold c2. fold (body_state (o_width o) c u coh st). fold sa. rewrite E1.
      destruct ON; subst outb; do 2 eexists; (split; [reflexivity|]); auto. }
  pose proof (simulation o HP N1) as (SM1 & _).
  destruct (body_step o N1 dv du d F F' k D1 c u coh t step body st outb st2 SM1 HL HI E1 ON) as (HI3 & OFF & LN3).
  fold c2 in HI3. set (st3 := restore_continued c st2) in *.
  assert (R3 : v_ret st3 = v_ret st2 /\ v_tr st3 = v_tr st2).
  { unfold st3, restore_continued. destruct (c_cl c), (c_bl c); cbn; auto. }
  destruct R3 as [R3 T3].
  assert (HF3 : flg (o_width o) fa nr true None None c2 st3).
  { eapply flg_none; [eapply flg_exec0; [exact E1| |exact MRb|exact HFB]|reflexivity|exact R3|]; [exact C2|]. apply HF. }
  (* with uniform control flow a lane stays on *)
  assert (ESC : u = true -> d =? 0 = false -> esc true step = false /\ esc true body = false).
  { intros -> E. unfold lguard in HG. rewrite E in HG. cbn [orb] in HG. apply andb_prop in HG as [HG _].
    apply andb_prop in HG as [HG _]. apply negb_true_iff in HG. apply orb_false_elim in HG as [Y1 Y2]. split; auto.
    eapply esc_uniform; eauto. eapply (proj1 (chk_wfs dv du)); eauto. }
  assert (SM3 : u = true -> some (o_width o) c2 st3).
  { intros ->. destruct (d =? 0) eqn:ED.
    - apply Nat.eqb_eq in ED. eapply inv_some; eauto.
    - destruct (ESC eq_refl eq_refl) as [_ Y2]. destruct SMA as (l & W & Fm & M). exists l. split; auto. split; auto.
      assert (st3 = st2) as -> by (apply restore_uni; auto).
      destruct (proj1 (esc_same l N1) o c2 body sa outb st2 true (kof (Some k)) E1 W Fm Y2) as [(X & _) _].
      + apply HFB.
      + eapply (proj1 (chk_wfs dv du)); eauto.
      + cbn [kof]. rewrite L1. discriminate.
      + eapply inv_bok; eauto.
      + congruence. }
  destruct (IHe dv du None d F D1 Dy c2 step st3 fa nr u true None HCL L14 (ctxrel_none _ _ _ _ L5) I I L9 HI3 GS HF3)
    as (N2 & outs & st4 & E2 & LV4); auto.
  { rewrite T3. auto. }
  { intros l W Fm M3. change (c_fm c l = true) in Fm.
    destruct (v_mask st l) eqn:M; [|rewrite (OFF l W Fm M) in M3; discriminate].
    destruct (LN l W Fm M) as (s0 & A & X). destruct (LN3 l W Fm M M3 s0 A) as (ol & s1 & EL & OL & A3).
    exists s1. split; auto. intros Y. apply X. cbn [lbody].
    destruct (lexec n (o_funs o) l body s0) as [r|] eqn:EN; auto.
    rewrite (lexec_det _ _ _ _ _ _ _ _ EN EL). destruct OL; subst ol; rewrite Y; auto. }
  assert (GO : forall M r, N1 <= M -> N2 <= M -> 
     (match outs with VNorm => vtop M o c u coh t step body st4 | _ => Some (outs, st4) end) = Some r ->
     vbody (S M) o c u coh t step body st = Some r).
  { intros M r M1 M2 X. cbn [vbody]. fold c2. fold (body_state (o_width o) c u coh st). fold sa.
    rewrite (vexec_mono N1 M _ _ _ _ _ M1 E1). fold st3. rewrite (vexec_mono N2 M _ _ _ _ _ M2 E2).
    destruct ON; subst outb; destruct outs; auto. }
  destruct (match outs with VNorm => true | _ => false end) eqn:OS.
  2:{ exists (S (N1 + N2)), outs, st4. split; auto. apply GO; [lia|lia|]. destruct outs; auto; discriminate. }
  assert (outs = VNorm) by (destruct outs; auto; discriminate). subst outs. clear OS.
  pose proof (proj1 (simulation o HP N2) dv du None d F D1 Dy c2 step st3 VNorm st4 E2 L14 (ctxrel_none _ _ _ _ L5) I I L9 HI3) as P4.
  assert (HI4 : inv (o_width o) None d c2 st4) by (apply P4; auto).
  assert (HF4 : flg (o_width o) fa nr true None None c2 st4).
  { eapply flg_exec0; [exact E2|exact C2|exact MRs|exact HF3]. }
  destruct (IHt dv du d F F' k D1 c u coh t step body st4 fa nr neb HCL HL) as (N3 & out5 & st5 & E5 & LV5); auto.
  { eapply flg_none; [exact HF4|reflexivity|reflexivity|apply HF]. }
  { intros ->. destruct (d =? 0) eqn:ED.
    - apply Nat.eqb_eq in ED. apply (inv_some _ _ _ _ _ _ _ _ _ HI4 HF4 ED).
    - destruct (ESC eq_refl eq_refl) as [Y1 _]. destruct (SM3 eq_refl) as (l & W & Fm & M). exists l. split; auto. split; auto.
      destruct (proj1 (esc_same l N2) o c2 step st3 VNorm st4 true KN E2 W Fm Y1) as [(X & _) _].
      + apply HF3.
      + apply (proj1 (chk_wfs dv du) step None d F D1 Dy L14).
      + discriminate.
      + eapply inv_bok; eauto.
      + congruence. }
  { assert (LL : lanes (o_width o) Dy c2 st4 (fun l s0 => ltop n (o_funs o) l t step body s0 <> None)).
    { refine (lanes_next o N2 dv du None d F D1 Dy c2 step st3 st4
             (fun l s0 => forall s1, lexec N2 (o_funs o) l step s0 = Some (LNorm, s1) -> ltop n (o_funs o) l t step body s1 <> None) _ E2 P4 _ _).
      - intros l W Fm M3. change (c_fm c l = true) in Fm.
        destruct (v_mask st l) eqn:M; [|rewrite (OFF l W Fm M) in M3; discriminate].
        destruct (LN l W Fm M) as (s0 & A & X). destruct (LN3 l W Fm M M3 s0 A) as (ol & s1 & EL & OL & A3).
        exists s1. split; auto. intros s2 ES Y. apply X. cbn [lbody].
        destruct (lexec n (o_funs o) l body s0) as [r|] eqn:EN; auto.
        rewrite (lexec_det _ _ _ _ _ _ _ _ EN EL).
        destruct (lexec n (o_funs o) l step s1) as [r2|] eqn:EN2; [|destruct OL; subst ol; auto].
        rewrite (lexec_det _ _ _ _ _ _ _ _ EN2 ES). destruct OL; subst ol; auto.
      - intros l s0 s1 Q E. apply Q; auto. }
    intros l W Fm M. destruct (LL l W Fm M) as (s0 & A & X). exists s0. split; auto.
    eapply agree_le; [|exact A]. eapply chk_le; eauto. }
  exists (S (N1 + N2 + N3)), out5, st5. split; auto. apply GO; [lia|lia|]. eapply vtop_mono; [|exact E5]. lia.
Qed.
