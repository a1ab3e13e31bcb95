(** Proofs about initializers (C64): constants, conversions, memory. *)
From Coq Require Import List Bool Arith Lia Permutation.
Import ListNotations.
From Verif Require Import CastModel CastProofs InitModel InitSpec.

Section Proofs.
Variables (V : Type) (zero : basic -> V) (conv : basic -> basic -> V -> V) (W : nat) (mem_count : nat -> nat) (value : nat -> val V).
Notation initial := (initial V zero conv W value).
Notation members := (members V zero conv W value).
Notation converted := (converted V conv W).
Notation has_type := (has_type V W).
Notation holds := (holds V W).
Notation is_zero := (is_zero V zero W).
Notation const_init := (const_init V zero conv W).
Notation const_expr := (const_expr V conv W).
Notation zero_val := (zero_val V zero W).
Notation store := (store V mem_count).

Fixpoint init_ind' (P : init V -> Prop) (HE : forall e, P (IExpr e)) (HL : forall l, Forall P l -> P (IList l)) (i : init V) : P i :=
  match i with
  | IExpr e => HE e
  | IList l => HL l ((fix go l : Forall P l := match l with [] => Forall_nil P | i :: l => Forall_cons i (init_ind' P HE HL i) (go l) end) l)
  end.
Fixpoint ty_ind' (P : ty -> Prop) (HB : forall vy b, P (TB vy b)) (HV : forall vy n b, P (TV vy n b))
  (HA : forall n t, P t -> P (TA n t)) (HS : forall ts, Forall P ts -> P (TS ts)) (t : ty) : P t :=
  match t with
  | TB vy b => HB vy b
  | TV vy n b => HV vy n b
  | TA n t => HA n t (ty_ind' P HB HV HA HS t)
  | TS ts => HS ts ((fix go l : Forall P l := match l with [] => Forall_nil P | t :: l => Forall_cons t (ty_ind' P HB HV HA HS t) (go l) end) ts)
  end.

Lemma F2_map_l : forall {A B C} (P : B -> C -> Prop) (f : A -> B) l l', Forall2 (fun a c => P (f a) c) l l' -> Forall2 P (map f l) l'.
Proof. induction 1; constructor; auto. Qed.
Lemma F2_len : forall {A B} (P : A -> B -> Prop) l l', Forall2 P l l' -> length l = length l'.
Proof. induction 1; cbn; auto. Qed.

(** ** Zero *)
Lemma is_zero_val : forall t x, is_zero t x -> x = zero_val t.
Proof.
  induction t using ty_ind'; intros x Z; inversion Z; subst; cbn.
  - auto. - auto.
  - inversion H3; subst; auto.
  - erewrite <- IHt; eauto.
  - f_equal. clear Z. revert l H1 H. induction ts; intros l F2 F1; inversion F2; inversion F1; subst; cbn; auto. f_equal; auto.
Qed.
Lemma zero_type : forall t, has_type t (zero_val t).
Proof.
  induction t using ty_ind'; cbn.
  - destruct vy; constructor. apply repeat_length.
  - destruct vy; constructor; try apply repeat_length.
    + induction n; cbn; constructor; auto. constructor. apply repeat_length.
    + induction n; cbn; constructor; auto. constructor.
  - constructor; [apply repeat_length|]. induction n; cbn; constructor; auto.
  - constructor. induction H; cbn; constructor; auto.
Qed.

(** ** Storing *)
Lemma scalars_VB : forall l b, Forall (has_type (TB false b)) l -> exists vs, l = map VB vs.
Proof.
  induction l; intros b F; inversion F; subst; [exists []; auto|]. destruct (IHl b H2) as (vs & ->). inversion H1; subst.
  exists (x :: vs). auto.
Qed.
Lemma store_holds : forall t x, has_type t x -> holds t (store t x) x.
Proof.
  induction t using ty_ind'; intros x T; inversion T; subst; cbn [InitModel.store].
  - constructor. - constructor; auto.
  - match goal with H : Forall (has_type (TB vy b)) l |- _ => rename H into F end. destruct vy.
    + constructor; auto. clear T. induction F; cbn; constructor; auto. inversion H; subst. constructor; auto.
    + destruct (scalars_VB l b F) as (vs & ->). rewrite map_map. cbn [scalar]. constructor. rewrite map_length. auto.
  - constructor; auto. match goal with H : Forall (has_type t) l |- _ => rename H into F end. clear T. induction F; cbn; constructor; auto.
  - match goal with H : Forall2 has_type ts l |- _ => rename H into F end. clear T.
    assert (X : Forall2 (fun t p => holds t (fst p) (snd p)) ts
      (combine ((fix go (ts : list ty) (l : list (val V)) {struct ts} := match ts, l with t :: ts, v :: l => store t v :: go ts l | _, _ => [] end) ts l) l) /\
      length ((fix go (ts : list ty) (l : list (val V)) {struct ts} := match ts, l with t :: ts, v :: l => store t v :: go ts l | _, _ => [] end) ts l) = length ts /\ length l = length ts).
    { revert H. induction F as [|t v ts l T F IHF]; intros H; [repeat constructor|]. inversion H as [|? ? Q1 Q2]; subst. destruct (IHF Q2) as (A & B & C).
      split; [constructor; [apply Q1; auto|exact A]|]. split; cbn [length]; [f_equal; exact B|f_equal; exact C]. }
    destruct X as (A & B & C). constructor; auto.
Qed.

(** ** Conversion *)
Lemma conv_basic_ok : forall vy vy' b b' v x, converted (TB vy b) (TB vy' b') v x -> conv_basic V conv W vy vy' b b' v = OK x.
Proof. intros vy vy' b b' v x C. inversion C; subst; reflexivity. Qed.
Lemma converted_convertible : forall t t' v x, converted t t' v x -> convertible t t' = true.
Proof.
  assert (E : forall t, ty_eqb t t = true).
  { induction t using ty_ind'; cbn.
    - rewrite Bool.eqb_reflx. destruct b; auto. - rewrite Bool.eqb_reflx, Nat.eqb_refl. destruct b; auto.
    - rewrite Nat.eqb_refl. auto. - induction H; auto. rewrite H. auto. }
  induction 1; cbn; auto.
  - rewrite Nat.eqb_refl, andb_true_r. destruct vy; auto. destruct vy'; auto.
  - apply (E (TS ts)).
Qed.
Lemma all_ok_map : forall {A B} (f : A -> res B) l l', Forall2 (fun a b => f a = OK b) l l' -> all_ok (map f l) = OK l'.
Proof. induction 1; cbn; auto. rewrite H, IHForall2. auto. Qed.
Lemma convert_ok : forall t t' v x, converted t t' v x -> (forall n vy b, t = TV false n BBool -> t' <> TB vy b) ->
  convert V conv W t t' v = OK x.
Proof.
  intros t t' v x C S. inversion C; subst; cbn [convert].
  - reflexivity. - reflexivity. - reflexivity.
  - erewrite conv_basic_ok by eauto. destruct vy; cbn; auto.
    destruct (basic_eqb b BBool) eqn:E; auto. exfalso. destruct b; try discriminate. eapply S; eauto.
  - rewrite Nat.eqb_refl. erewrite all_ok_map; [reflexivity|].
    match goal with H : Forall2 _ l l' |- _ => clear - H; induction H; constructor; auto end. apply conv_basic_ok; auto.
  - replace (ty_eqb (TS ts) (TS ts)) with true; auto. symmetry. apply (converted_convertible _ _ _ _ C).
Qed.

(** ** The type of the value *)
Lemma converted_type : forall t t' v x, converted t t' v x -> has_type t x.
Proof.
  intros t t' v x C. induction C.
  - constructor. - constructor. apply repeat_length. - constructor. rewrite map_length. auto.
  - constructor; [apply repeat_length|]. induction n; cbn; constructor; auto.
  - constructor; [rewrite <- (F2_len _ _ _ H1); auto|].
    clear - H1. induction H1; constructor; auto. inversion H; subst; constructor; try apply repeat_length. rewrite map_length; auto.
  - auto.
Qed.
Lemma F_repeat2 : forall {A B} (P : A -> B -> Prop) t n l, Forall2 P (repeat t n) l -> length l = n /\ Forall (P t) l.
Proof.
  intros A B P t n l H. pose proof (F2_len _ _ _ H) as L. rewrite repeat_length in L. split; auto.
  revert l H L. induction n; intros l H L; cbn in H; inversion H; subst; constructor; auto.
Qed.
Lemma members_type : forall ts l xs, Forall (fun i => forall t x, initial t i x -> has_type t x) l -> members ts l xs -> Forall2 has_type ts xs.
Proof.
  intros ts l xs F M. revert F. induction M; intros F; constructor; auto.
  - apply is_zero_val in H. subst. apply zero_type.
  - inversion F; subst. auto.
  - apply IHM. inversion F; auto.
Qed.
Lemma initial_type : forall i t x, initial t i x -> has_type t x.
Proof.
  induction i using init_ind'; intros t x I0; inversion I0; subst.
  - eapply converted_type; eauto.
  - match goal with H : Forall _ [_] |- _ => inversion H; subst end. auto.
  - constructor. erewrite <- F2_len by eauto. auto.
  - match goal with M : members _ _ _ |- _ => apply members_type in M; auto; apply F_repeat2 in M; destruct M end. constructor; auto.
  - match goal with M : members _ _ _ |- _ => apply members_type in M; auto; apply F_repeat2 in M; destruct M end. constructor; auto.
  - constructor. eapply members_type; eauto.
Qed.

(** ** Constants *)
Fixpoint const_els (ts : list ty) (l : list (init V)) {struct l} : res (option (list (val V))) :=
  match l, ts with
  | [], ts => OK (Some (map zero_val ts))
  | i :: l, t :: ts =>
      let ok := match i with IExpr e => convertible t (e_ty e) | IList _ => true end in
      if ok then
        match const_init t i with
        | OK (Some v) => match const_els ts l with OK (Some r) => OK (Some (v :: r)) | r => r end
        | OK None => OK None
        | Err => Err
        | Crash => Crash
        end
      else Err
  | _ :: _, [] => Err
  end.
Definition const_by_list (t : ty) (l : list (init V)) : res (option (val V)) :=
  match element_types W t with
  | None => OK None
  | Some ts =>
      if length ts <? length l then Err
      else if is_basic t && (length l <? length ts) then Err
      else match const_els ts l with OK (Some r) => OK (Some (assemble V t r)) | OK None => OK None | Err => Err | Crash => Crash end
  end.
Lemma const_init_list : forall t l, const_init t (IList l) =
  match l with [i] => if is_basic t then const_init t i else const_by_list t l | _ => const_by_list t l end.
Proof. intros t [|i [|j l]]; reflexivity. Qed.

Lemma widen : forall i b v, initial (TB false b) i (VB v) -> initial (TB true b) i (VL (repeat v W)).
Proof.
  induction i using init_ind'; intros b v I0; inversion I0; subst.
  - match goal with C : converted _ _ _ _ |- _ => inversion C; subst end. constructor.
    match goal with E : _ = e_ty e, X : VB _ = expr_value _ _ _ |- _ => rewrite <- E, <- X end. constructor.
  - constructor. match goal with H : Forall _ [_] |- _ => inversion H; subst end. auto.
Qed.
(** A list for a varying variable of a gang of one is a single value in braces. *)
Lemma lanes_cases : forall b l vs, length l = W -> Forall2 (fun i v => initial (TB false b) i (VB v)) l vs ->
  match l with [i] => initial (TB true b) i (VL vs) | _ => True end.
Proof.
  intros b [|i [|j l]] vs L F; auto. revert L. inversion F as [|? y ? ? F1 F2]; subst. inversion F2; subst. intros L.
  replace [y] with (repeat y W) by (rewrite <- L; auto). apply widen; auto.
Qed.
Lemma lanes_members : forall b l vs, length l = W -> Forall2 (fun i v => initial (TB false b) i (VB v)) l vs ->
  members (repeat (TB false b) W) l (map VB vs).
Proof.
  intros b l vs L F. assert (G : forall n, length l = n -> members (repeat (TB false b) n) l (map VB vs)); auto.
  clear L. induction F; intros [|n] L; try discriminate; cbn; constructor; auto.
Qed.
Lemma members_len : forall ts l xs, members ts l xs -> (length l <= length ts)%nat /\ length xs = length ts.
Proof. induction 1; cbn; lia. Qed.
Lemma all_scalars_VB : forall vs, all_scalars V (map VB vs) = vs.
Proof. induction vs; cbn; f_equal; auto. Qed.

Definition const_ok (t : ty) (i : init V) (x : val V) : Prop :=
  const_init t i = OK None \/ (const_init t i = OK (Some x) /\ effects V i = []).
Lemma const_els_ok : forall ts l xs, Forall (fun i => forall t x, initial t i x -> const_ok t i x) l -> members ts l xs ->
  const_els ts l = OK None \/ (const_els ts l = OK (Some xs) /\ flat_map (effects V) l = []).
Proof.
  intros ts l xs F M. revert F. induction M; intros F.
  - right. auto.
  - right. split; auto. destruct (IHM F) as [E|[E _]]; [discriminate|]. cbn in *. injection E as E. rewrite E. apply is_zero_val in H. subst. auto.
  - inversion F as [|? ? F1 F2]; subst. cbn [const_els].
    assert (K : match i with IExpr e => convertible t (e_ty e) | IList _ => true end = true).
    { destruct i; auto. inversion H; subst. eapply converted_convertible; eauto. }
    rewrite K. destruct (F1 _ _ H) as [E|[E N]]; rewrite E; auto.
    destruct (IHM F2) as [E'|[E' N']]; rewrite E'; auto. right. cbn [flat_map]. rewrite N, N'. auto.
Qed.
Lemma const_by_list_ok : forall t ts l xs, Forall (fun i => forall t x, initial t i x -> const_ok t i x) l ->
  element_types W t = Some ts -> members ts l xs -> (is_basic t = true -> length l = length ts) ->
  const_by_list t l = OK None \/ (const_by_list t l = OK (Some (assemble V t xs)) /\ flat_map (effects V) l = []).
Proof.
  intros t ts l xs F E M B. unfold const_by_list. rewrite E. destruct (members_len _ _ _ M) as (L1 & L2).
  destruct (Nat.ltb_spec (length ts) (length l)); [lia|].
  replace (is_basic t && (length l <? length ts)) with false.
  2: { destruct (is_basic t); auto. cbn. symmetry. apply Nat.ltb_ge. rewrite B; auto. }
  destruct (const_els_ok _ _ _ F M) as [X|[X Y]]; rewrite X; auto.
Qed.
Lemma const_sound : forall i t x, initial t i x -> const_ok t i x.
Proof.
  induction i using init_ind'; intros t x I0.
  - inversion I0; subst. unfold const_ok. cbn. unfold InitModel.const_expr, expr_value in *. destruct (e_const e); auto.
    match goal with C : converted _ _ _ _ |- _ => inversion C; subst end; cbn; auto.
  - unfold const_ok. rewrite const_init_list. cbn [effects]. inversion I0; subst.
    + cbn. inversion H as [|? ? Q1 Q2]; subst. rewrite app_nil_r. apply Q1. auto.
    + match goal with L : length l = W, F : Forall2 _ l vs |- _ => pose proof (lanes_cases _ _ _ L F) as K; pose proof (lanes_members _ _ _ L F) as M;
        pose proof (const_by_list_ok (TB true b) _ _ _ H eq_refl M ltac:(rewrite repeat_length; auto)) as Q end.
      cbn [assemble is_basic] in Q. unfold assemble in Q. cbn [is_basic] in Q. rewrite all_scalars_VB in Q.
      destruct l as [|i [|j l]]; auto. cbn [is_basic flat_map]. rewrite app_nil_r. inversion H as [|? ? Q1 Q2]; subst. apply Q1. auto.
    + match goal with M : members _ _ _ |- _ => pose proof (const_by_list_ok (TV vy n b) _ _ _ H eq_refl M ltac:(discriminate)) as Q end.
      destruct l as [|i [|j l]]; auto.
    + match goal with M : members _ _ _ |- _ => pose proof (const_by_list_ok (TA n t0) _ _ _ H eq_refl M ltac:(discriminate)) as Q end.
      destruct l as [|i [|j l]]; auto.
    + match goal with M : members _ _ _ |- _ => pose proof (const_by_list_ok (TS ts) _ _ _ H eq_refl M ltac:(discriminate)) as Q end.
      destruct l as [|i [|j l]]; auto.
Qed.
Lemma unbrace : forall vy b i x, initial (TB vy b) (IList [i]) x -> initial (TB vy b) i x.
Proof.
  intros vy b i x I0. remember (TB vy b) as t eqn:Et. remember (IList [i]) as l eqn:El. destruct I0; try discriminate.
  - injection El as ->. auto.
  - injection El as ->. injection Et as <- <-. exact (lanes_cases _ _ _ H H0).
Qed.
(** Constants are found to be constant. *)
Lemma constant_ok : forall i, constant V i -> forall vy b x, initial (TB vy b) i x -> const_init (TB vy b) i = OK (Some x).
Proof.
  induction 1; intros vy0 b0 x I0.
  - inversion I0; subst. cbn. unfold InitModel.const_expr, expr_value in *. rewrite H in *. rewrite H0 in *.
    match goal with C : converted _ _ _ _ |- _ => inversion C; subst end; reflexivity.
  - rewrite const_init_list. cbn [is_basic]. apply unbrace in I0. auto.
Qed.
Lemma constants_els : forall vy b n l xs, Forall (constant V) l -> members (repeat (TB vy b) n) l xs -> const_els (repeat (TB vy b) n) l = OK (Some xs).
Proof.
  intros vy b n l xs F M. remember (repeat (TB vy b) n) as ts eqn:E. revert n E F. induction M; intros n E F.
  - reflexivity.
  - destruct n; [discriminate|]. cbn in E. injection E as -> E. specialize (IHM n E F). cbn in *. injection IHM as ->. apply is_zero_val in H. subst. auto.
  - destruct n; [discriminate|]. cbn in E. injection E as -> E. inversion F as [|? ? F1 F2]; subst. cbn [const_els].
    assert (K : match i with IExpr e => convertible (TB vy b) (e_ty e) | IList _ => true end = true).
    { destruct i; auto. inversion H; subst. eapply converted_convertible; eauto. }
    rewrite K. rewrite (constant_ok _ F1 _ _ _ H). rewrite (IHM n); auto.
Qed.
End Proofs.
