(** Steps of the liveness proof that concern one construct. *)
From Coq Require Import ZArith List Bool Arith Lia.
From Verif Require Import Bits SpmdModel SpmdSpec SpmdRel SpmdProofs SpmdIf SpmdLoop SpmdSwitch SpmdMain.
From Verif Require Import SpmdGuard SpmdLive SpmdLive2 SpmdLive3 SpmdLive4.
Import ListNotations.

Lemma lexec_det n m fs l s st r r' : lexec n fs l s st = Some r -> lexec m fs l s st = Some r' -> r = r'.
Proof.
  intros H1 H2. apply (lexec_mono n (n + m)) in H1; [|lia]. apply (lexec_mono m (n + m)) in H2; [|lia]. congruence.
Qed.

Lemma lrun_mono n m fs l ss st r : n <= m -> lrun n fs l ss st = Some r -> lrun m fs l ss st = Some r.
Proof. induction 1; auto. intros X. apply lrun_S; auto. Qed.

(** Some lane is on. *)
Definition some (w : nat) (c : cx) (st : vst) : Prop := exists l, l < w /\ c_fm c l = true /\ v_mask st l = true.

Lemma some_dec w c st : some w c st \/ alloff w c st.
Proof.
  destruct (m_any w (full c st)) eqn:E.
  - left. apply m_any_true in E as (l & W & X). unfold full, mand in X. apply andb_prop in X as [X F]. exists l; auto.
  - right. rewrite m_any_false in E. intros l W F. specialize (E l W). unfold full, mand in E. rewrite F, andb_true_r in E. auto.
Qed.

(** Every effect has a lane that it is for. *)
Definition live (w : nat) (tr : list (nat * (lane -> option Z))) : Prop :=
  forall k ev, In (k, ev) tr -> exists l, l < w /\ ev l <> None.

(** ** The state at the start of one side of an `if` *)

Lemma side_inv w dv du K d F (c : cx) m sel st :
  kcond dv du d F K ->
  (forall l, l < w -> c_fm c l = true -> bits_ok K st l) ->
  (forall l, l < w -> c_fm c l = true -> sel l = true ->
     v_brk st l = false /\ v_cnt st l = false /\ v_ret st l = false /\
     match K with None => True | Some _ => c_be c l = true end) ->
  (forall l, l < w -> c_fm c l = true -> m l = sel l) ->
  inv w K (S d) (push_if false c) (set_mask m st).
Proof.
  intros HK HB HS Hm l Hl Hf. destruct (HB l Hl Hf) as [B1 B2]. specialize (Hm l Hl Hf). specialize (HS l Hl Hf).
  split; [split|].
  - cbn. rewrite Hm. intros X. destruct (HS X) as (Y1 & Y2 & Y3 & _). auto.
  - destruct K; exact B2.
  - split; [discriminate|]. destruct K as [k|]; auto. split.
    + cbn. rewrite Hm. intros X. destruct (HS X) as (_ & _ & _ & Y). exact Y.
    + destruct HK as (K1 & _). intros X. lia.
Qed.

(** ** The state at the start of a loop body, and at the loop's step *)

Definition body_state (w : nat) (c : cx) (u coh : bool) (st : vst) : vst :=
  if coh && negb u && m_all w (full c st) then set_mask all_on st else st.

Lemma body_state_eq w c u coh st :
  (forall l, l < w -> c_fm c l = true -> v_mask (body_state w c u coh st) l = v_mask st l) /\
  v_brk (body_state w c u coh st) = v_brk st /\ v_cnt (body_state w c u coh st) = v_cnt st /\
  v_ret (body_state w c u coh st) = v_ret st /\ v_V (body_state w c u coh st) = v_V st /\
  v_U (body_state w c u coh st) = v_U st /\ v_G (body_state w c u coh st) = v_G st /\
  v_rv (body_state w c u coh st) = v_rv st /\ v_tr (body_state w c u coh st) = v_tr st.
Proof.
  unfold body_state. destruct (coh && negb u && m_all w (full c st)) eqn:EA; [|repeat split; auto].
  apply andb_prop in EA as [_ EA]. rewrite m_all_true in EA. cbn. split; [|repeat split; auto].
  intros l Hl Hf. specialize (EA l Hl). unfold full, mand in EA. apply andb_prop in EA as [EA _]. rewrite EA; auto.
Qed.

Lemma body_start w k d c u coh st :
  inv w None d c st -> inv w (Some k) d (set_be (full c st) c) (body_state w c u coh st).
Proof.
  intros HI l Hl Hf. destruct (body_state_eq w c u coh st) as (S1 & S2 & S3 & S4 & _).
  change (c_fm c l = true) in Hf. destruct (HI l Hl Hf) as ((B1 & B2) & W2 & _).
  unfold bits_ok. rewrite S2, S3, S4, (S1 l Hl Hf). split; [split|split]; auto.
  - destruct B2 as [Z1 Z2]. auto.
  - split.
    + intros M. cbn. unfold full, mand. rewrite M, Hf. auto.
    + intros _ _ X. cbn in X. unfold full, mand in X. apply andb_prop in X as [X _]. auto.
Qed.

Lemma body_step o n dv du d F F' k D1 c u coh t step body st outb st2 :
  Pexec o n -> loop_ok o dv du d F F' k D1 c u t step body -> inv (o_width o) None d c st ->
  vexec n o (set_be (full c st) c) body (body_state (o_width o) c u coh st) = Some (outb, st2) ->
  outb = VNorm \/ outb = VCont ->
  inv (o_width o) None d (set_be (full c st) c) (restore_continued c st2) /\
  (forall l, l < o_width o -> c_fm c l = true -> v_mask st l = false -> v_mask (restore_continued c st2) l = false) /\
  (forall l, l < o_width o -> c_fm c l = true -> v_mask st l = true -> v_mask (restore_continued c st2) l = true ->
     forall s, agree l D1 st s -> exists ol s', lexec n (o_funs o) l body s = Some (ol, s') /\ (ol = LNorm \/ ol = LCont) /\
       agree l D1 (restore_continued c st2) s').
Proof.
  intros IHe HL HI EB ON.
  pose proof HL as (L1 & L2 & L3 & L4 & L5 & L6 & L7 & L8 & L9 & L10 & L11 & L12 & [Dx L13] & [Dy L14]).
  pose proof L5 as (C1 & C2 & CF & BT & CT & BL & CL & SW). rewrite L1, L2 in BL, CL. cbn in BL, CL.
  set (c2 := set_be (full c st) c) in *. set (sa := body_state (o_width o) c u coh st) in *.
  destruct (body_state_eq (o_width o) c u coh st) as (S1 & S2 & S3 & S4 & S5 & S6 & S7 & S8 & S9). fold sa in S1, S2, S3, S4, S5, S6, S7, S8, S9.
  assert (F0A : forall l, frame0 dv d F l st sa).
  { intros. unfold frame0, gframe. rewrite S2, S3, S4, S5, S7, S8, S9. repeat split; auto. }
  assert (AGA : forall l D s, agree l D st s -> agree l D sa s).
  { intros l D s. unfold agree, agreeG. rewrite S5, S6, S7, S8, S9. auto. }
  assert (HIA : inv (o_width o) (Some k) d c2 sa) by (apply body_start; auto).
  assert (HKS : kscope (Some k) D1).
  { cbn. split; auto. rewrite L4. apply scope_le_refl. }
  pose proof (IHe dv du (Some k) d F' D1 Dx c2 body sa outb st2 EB L13 L5 L6 HKS L9 HIA)
    as (U & G & Fr & Ac & I & J & XB & XL & T).
  assert (Fr' : forall l, l < o_width o -> c_fm c l = true -> v_mask st l = false -> framex outb dv d F l st st2).
  { intros l Hl Hf Hm. eapply framex_trans; [apply F0A|]. eapply framex_weaken; [|exact L7|]; [apply Nat.le_refl|].
    apply Fr; auto. rewrite S1; auto. }
  assert (Ac' : forall l, l < o_width o -> c_fm c l = true -> v_mask st l = true -> forall s, agree l D1 st s ->
            exists ol s', lexec n (o_funs o) l body s = Some (ol, s') /\ outrel (Some k) outb ol l Dx st2 s').
  { intros l Hl Hf Hm s Hs. apply Ac; auto. rewrite S1; auto. }
  destruct L6 as (K1 & K2 & K3 & K4 & K5).
  set (st3 := restore_continued c st2) in *.
  assert (LN : forall l, l < o_width o -> c_fm c l = true -> v_mask st l = true -> forall s, agree l D1 st s ->
            exists ol s', lexec n (o_funs o) l body s = Some (ol, s') /\
              (((ol = LNorm \/ ol = LCont) /\ v_mask st3 l = true /\ v_brk st3 l = false /\ v_cnt st3 l = false /\
                v_ret st3 l = false /\ agree l D1 st3 s') \/
               (ol = LBrk /\ u = false /\ v_mask st3 l = false /\ v_brk st3 l = false /\ v_cnt st3 l = false /\
                v_ret st3 l = false /\ agree l (k_db k) st3 s') \/
               (ol = LRet /\ v_mask st3 l = false /\ v_brk st3 l = false /\ v_cnt st3 l = false /\
                v_ret st3 l = true /\ agreeG l st3 s'))).
  { intros l Hl Hf Hm s Hs. destruct (Ac' l Hl Hf Hm s Hs) as (ol & s' & E & X). exists ol, s'. split; auto.
    assert (BO : bits_ok (Some k) st2 l).
    { destruct ON as [ -> | -> ].
      - apply (I eq_refl l Hl Hf).
      - destruct (J (or_intror eq_refl)) as (k' & Ek & JJ). apply (JJ l Hl Hf). }
    assert (X' : ((ol = LNorm \/ ol = LCont) /\ v_mask st2 l = true /\ agree l D1 st2 s') \/ rec (Some k) ol l st2 s').
    { destruct ON as [ -> | -> ]; cbn [outrel] in X.
      - destruct X as [(A1 & A2 & A3)|X]; auto. left. split; auto. split; auto.
        eapply agree_le; [|exact A3]. eapply chk_le; eauto.
      - destruct X as [(A1 & A2 & k' & Ek & A3)|X]; auto. injection Ek as <-. left. rewrite L4 in A3. auto. }
    clear X.
    assert (AG3 : forall D0, agree l D0 st2 s' -> agree l D0 st3 s').
    { intros D0. unfold st3, restore_continued, agree, agreeG. destruct (c_cl c), (c_bl c); cbn; auto. }
    assert (AGG3 : agreeG l st2 s' -> agreeG l st3 s').
    { unfold st3, restore_continued, agreeG. destruct (c_cl c), (c_bl c); cbn; auto. }
    assert (M3 : v_mask st3 l = v_mask st2 l || (negb u && v_cnt st2 l)).
    { unfold st3, restore_continued. rewrite CL, BL. destruct u; cbn; auto. rewrite orb_false_r; auto. }
    assert (B3 : v_brk st3 l = u && v_brk st2 l).
    { unfold st3, restore_continued. rewrite CL, BL. destruct u; cbn; auto. }
    assert (N3 : v_cnt st3 l = u && v_cnt st2 l).
    { unfold st3, restore_continued. rewrite CL, BL. destruct u; cbn; auto. }
    assert (R3 : v_ret st3 l = v_ret st2 l).
    { unfold st3, restore_continued. rewrite CL, BL. destruct u; cbn; auto. }
    rewrite M3, B3, N3, R3.
    destruct X' as [(A1 & A2 & A3)|[M R0]].
    - left. destruct BO as [B1 _]. destruct (B1 A2) as (Z1 & Z2 & Z3). rewrite A2, Z1, Z2, Z3, !andb_false_r.
      auto 12.
    - rewrite M. destruct ol; cbn [rec0] in R0; try tauto.
      + destruct R0 as (k' & Ek & EU & Z1 & Z2 & Z3 & AG). injection Ek as <-. right. left.
        destruct u; [congruence|]. rewrite Z2, Z3. cbn.
        auto 12.
      + destruct R0 as (k' & Ek & EU & EH & Z1 & Z2 & Z3 & AG). injection Ek as <-. left.
        destruct u; [congruence|]. rewrite Z2, Z3. cbn. rewrite L4 in AG.
        auto 12.
      + destruct R0 as (Z1 & Z2 & Z3 & AG). right. right. rewrite Z1, Z2, Z3, !andb_false_r.
        auto 12. }
  assert (OFF : forall l, l < o_width o -> c_fm c l = true -> v_mask st l = false -> frame dv d F l st st3).
  { intros l Hl Hf Hm. pose proof (Fr' l Hl Hf Hm) as X.
    assert (Y : frame dv d F l st st2) by (destruct ON; subst outb; exact X). clear X.
    destruct Y as (M & P1 & P2 & P3 & P4 & P5 & P6).
    destruct (HI l Hl Hf) as ((_ & Z1 & Z2) & _).
    unfold st3, restore_continued. rewrite CL, BL. destruct u; cbn.
    - split; auto. repeat split; auto; apply P5.
    - split; [cbn; unfold mor; rewrite M, P2, Z2; auto|].
      unfold frame0; cbn. unfold all_off. rewrite Z1, Z2. repeat split; auto; apply P5. }
  split; [|split].
  - intros l Hl Hf. destruct (HI l Hl Hf) as ((_ & Z1 & Z2) & W2 & _).
    destruct (v_mask st l) eqn:Hm.
    + destruct (LN l Hl Hf Hm _ (agree_lane_of l D1 st)) as (ol & s' & _ & X).
      destruct X as [(A1 & A2 & A3 & A4 & A5 & A6)|[(A1 & A0 & A2 & A3 & A4 & A5 & A6)|(A1 & A2 & A3 & A4 & A5 & A6)]].
      * repeat split; auto.
      * repeat split; auto; try congruence. intros E0. specialize (K5 (eq_trans L2 A0)). lia.
      * repeat split; auto; try congruence.
    + destruct (OFF l Hl Hf Hm) as (M & P1 & P2 & P3 & _).
      repeat split; auto; try congruence. intros E0. right. destruct (W2 E0); congruence.
  - intros l Hl Hf Hm. apply (OFF l Hl Hf Hm).
  - intros l Hl Hf Hm H3 s Hs. destruct (LN l Hl Hf Hm s Hs) as (ol & s' & E & X). exists ol, s'. split; auto.
    destruct X as [(A1 & A2 & A3 & A4 & A5 & A6)|[(A1 & A0 & A2 & A3 & A4 & A5 & A6)|(A1 & A2 & A3 & A4 & A5 & A6)]]; auto; congruence.
Qed.

(** ** The facts the check's flags stand for *)

Definition flg (w : nat) (fa : gcx) (nr jb : bool) (jd : option nat) (K : option kinfo) (c : cx) (st : vst) : Prop :=
  (g_on fa = true -> forall l, l < w -> c_fm c l = true) /\
  (nr = true -> forall l, l < w -> c_fm c l = true -> v_ret st l = false) /\
  jok jb c /\
  (forall dl, jd = Some dl -> nr = true /\ 0 < dl /\ exists k, K = Some k /\ k_dl k = dl /\ k_loop k || k_sc k = true /\
     k_uni k = false /\ (forall l, l < w -> c_be c l = true -> c_fm c l = true) /\ Ql w c st /\ Jl w c st) /\
  unret w (c_fm c) (v_ret st).

Lemma flg_exec n o fa nr jb jd dv K d c s st st' :
  vexec n o c s st = Some (VNorm, st') -> ctxrel dv K d c -> (nr = true -> mret (0 <? d) s = false) ->
  (forall dl, jd = Some dl -> dl <= d) ->
  flg (o_width o) fa nr jb jd K c st -> flg (o_width o) fa nr jb jd K c st'.
Proof.
  intros H HX HM HD (F1 & F2 & F3 & F4 & F5). pose proof HX as (_ & VD & HX').
  split; [auto|]. split; [|split; [auto|split; [|eapply unret_exec; eauto]]].
  - intros N. rewrite (proj1 (noret n) _ _ _ _ _ _ (0 <? d) H); auto. rewrite VD. intros X. apply Nat.ltb_ge in X. lia.
  - intros dl E. destruct (F4 dl E) as (N & P & k & EK & K1 & K2 & K3 & B & Q & J). split; auto. split; auto.
    exists k. split; auto. split; auto. split; auto. split; auto. split; auto.
    assert (M : mret true s = false).
    { specialize (HM N). specialize (HD dl E). assert (Z0 : 0 <? d = true) by (apply Nat.ltb_lt; lia). rewrite Z0 in HM. auto. }
    split; [eapply Ql_exec; eauto|]. subst K. destruct HX' as (_ & _ & _ & BL & _).
    eapply (proj1 (Jl_keep n)); eauto. rewrite BL, K3, andb_false_r. reflexivity.
Qed.

Lemma inv_bok w K d c st l : inv w K d c st -> l < w -> c_fm c l = true -> bok l st.
Proof. intros H W F. destruct (H l W F) as ((B & _) & _). exact B. Qed.

Lemma inv_some w K d c st fa nr jb jd :
  inv w K d c st -> flg w fa nr jb jd K c st -> d = 0 -> some w c st.
Proof.
  intros HI (_ & _ & _ & _ & _ & l & W & F & R) E. exists l. split; auto. split; auto.
  destruct (HI l W F) as (_ & X & _). destruct (X E); auto. congruence.
Qed.

Lemma inv_some_J w dv du FZ K d c st fa nr jb jd :
  inv w K d c st -> flg w fa nr jb jd K c st -> ctxrel dv K d c -> kcond dv du d FZ K -> jd = Some d -> some w c st.
Proof.
  intros HI (_ & _ & _ & X & _) HX HK E. destruct (X d E) as (_ & P & k & EK & K1 & K2 & K3 & B & Q & l & W & F & BE & R & BR & CN).
  subst K. exists l. split; auto. split; auto. destruct (HI l W F) as ((_ & B1 & _) & _ & _ & Y).
  destruct (Y (eq_sym K1) K2 BE) as [Z|[Z|[Z|Z]]]; auto; try congruence.
  exfalso. destruct HX as (_ & _ & _ & _ & _ & _ & CL & _). rewrite K3, andb_true_r in CL.
  destruct (k_loop k) eqn:KL; [rewrite CN in Z; auto; discriminate|].
  destruct HK as (_ & _ & _ & HH & _). rewrite B1 in Z; auto. discriminate.
Qed.

(** After a statement that passed the check, and that control leaves at its end, a lane is
    on if the check says so. *)
Lemma after_ok n o fa nr ne jb jd dv du FZ K d c s st st' D D' :
  vexec n o c s st = Some (VNorm, st') -> ctxrel dv K d c -> kcond dv du d FZ K ->
  chk dv du K d FZ D s = Some D' ->
  inv (o_width o) K d c st -> inv (o_width o) K d c st' ->
  flg (o_width o) fa nr jb jd K c st -> flg (o_width o) fa nr jb jd K c st' ->
  (ne = true -> some (o_width o) c st) -> after ne jb jd d s = true -> some (o_width o) c st'.
Proof.
  intros H HX HK HC HI HI' HF HF' HN. unfold after. intros A. apply orb_prop in A as [A|A]; [apply orb_prop in A as [A|A]|].
  - apply Nat.eqb_eq in A. eapply inv_some; eauto.
  - destruct jd as [dl|]; [|discriminate]. apply Nat.eqb_eq in A. subst dl. eapply inv_some_J; eauto.
  - apply andb_prop in A as [A1 A2]. apply negb_true_iff in A2. destruct (HN A1) as (l & W & F & M).
    exists l. split; auto. split; auto.
    destruct (proj1 (esc_same l n) o c s st VNorm st' jb (kof K) H W F A2) as [(X & _) _].
    + apply HF.
    + eapply (proj1 (chk_wfs dv du)); eauto.
    + intros E. destruct K as [k|]; [|discriminate]. cbn [kof] in E. destruct (k_loop k) eqn:KL; [discriminate|].
      destruct HX as (_ & _ & _ & _ & CT & _). congruence.
    + eapply inv_bok; eauto.
    + congruence.
Qed.

(** ** With no lane on *)

Lemma run_off o dv du FZ K d c s st D D' fa nr jb jd :
  0 < o_width o -> chk dv du K d FZ D s = Some D' -> ctxrel dv K d c -> kcond dv du d FZ K ->
  inv (o_width o) K d c st -> guarded fa nr false jb jd d s = true -> flg (o_width o) fa nr jb jd K c st ->
  alloff (o_width o) c st ->
  exists N out st', vexec N o c s st = Some (out, st') /\ v_tr st' = v_tr st.
Proof.
  intros W HC HX HK HI HG HF OFF.
  assert (NS : some (o_width o) c st -> False).
  { intros (l & Wl & F & M). rewrite OFF in M; auto. discriminate. }
  assert (D0 : 0 < d). { destruct d; [|lia]. exfalso. apply NS. eapply inv_some; eauto. }
  eapply (proj1 (off_runs o W) s fa nr jb jd d c st (kof K)); auto.
  - intros dl E. destruct (Nat.eq_dec dl d) as [->|N]; [exfalso; apply NS; eapply inv_some_J; eauto|].
    destruct HF as (_ & _ & _ & X & _). destruct (X dl E) as (_ & _ & k & EK & K1 & _). subst K. destruct HK as (HK & _). lia.
  - eapply (proj1 (chk_wfs dv du)); eauto.
  - destruct K as [k|]; [|cbn; congruence]. intros _. apply HX.
  - destruct K as [k|]; [|discriminate]. cbn [kof]. destruct (k_loop k) eqn:KL; [|discriminate]. intros _.
    destruct HX as (_ & _ & _ & _ & CT & _). congruence.
  - apply HF.
Qed.
