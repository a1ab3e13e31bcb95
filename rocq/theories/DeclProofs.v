(** Types, defaults and specifiers. *)
From Coq Require Import ZArith List Bool Arith Lia.
From Verif Require Import DeclModel DeclSpec.
Import ListNotations.

Section TyInd.
  Variable P : ty -> Prop.
  Hypothesis HA : forall v c b, P (Atom v c b).
  Hypothesis HV : forall c, P (Void c).
  Hypothesis HP : forall v c t, P t -> P (Ptr v c t).
  Hypothesis HR : forall n t, P t -> P (Arr n t).
  Hypothesis HF : forall v t, P t -> P (Ref v t).
  Hypothesis HN : forall r ps, P r -> Forall P ps -> P (Fun r ps).
  Fixpoint ty_induction (t : ty) : P t :=
    match t with
    | Atom v c b => HA v c b
    | Void c => HV c
    | Ptr v c t => HP v c t (ty_induction t)
    | Arr n t => HR n t (ty_induction t)
    | Ref v t => HF v t (ty_induction t)
    | Fun r ps => HN r ps (ty_induction r) ((fix go l : Forall P l := match l with [] => Forall_nil P | a :: r => Forall_cons a (ty_induction a) (go r) end) ps)
    end.
End TyInd.

(** nothing is unbound *)
Fixpoint bound (t : ty) : Prop :=
  match t with
  | Atom v _ _ => v <> Unb
  | Void _ => True
  | Ptr v _ t => v <> Unb /\ bound t
  | Arr _ t => bound t
  | Ref _ t => bound t
  | Fun r ps => bound r /\ (fix go l := match l with [] => True | a :: r => bound a /\ go r end) ps
  end.
Lemma bound_fun : forall r ps, bound (Fun r ps) <-> bound r /\ Forall bound ps.
Proof.
  intros r ps. cbn. split; intros [A B]; (split; [exact A|]); clear A.
  - induction ps as [|a ps IH]; constructor; [exact (proj1 B)|exact (IH (proj2 B))].
  - induction B; [exact I|split; assumption].
Qed.

Lemma completes_total : forall t d, exists s, completes d t s.
Proof.
  induction t using ty_induction; intros d; try (eexists; constructor; fail).
  - destruct (IHt false) as [s Q]. eexists. constructor. exact Q.
  - destruct (IHt d) as [s Q]. eexists. constructor. exact Q.
  - destruct (IHt d) as [s Q]. eexists. constructor. exact Q.
  - destruct (IHt true) as [s Q]. assert (exists us, Forall2 (completes true) ps us) as [us U].
    { induction H as [|a r A B IH]; [exists []; constructor|]. destruct (A true) as [u U]. destruct IH as [us V]. exists (u :: us). constructor; assumption. }
    exists (CFun s us). constructor; assumption.
Qed.
Lemma completes_fun : forall t d s s', completes d t s -> completes d t s' -> s = s'.
Proof.
  induction t using ty_induction; intros d s s' A B; inversion A; subst; inversion B; subst; try reflexivity; try (f_equal; eauto; fail).
  f_equal; [eauto|].
  match goal with U : Forall2 _ ps us, V : Forall2 _ ps us0 |- _ => clear - H U V; revert us0 V; induction U; intros us0 V; inversion V; subst; [reflexivity|];
    inversion H; subst; f_equal; eauto end.
Qed.
Lemma forall2_imp : forall (A B : Type) (R R' : A -> B -> Prop) (P : A -> Prop), (forall a b, P a -> R a b -> R' a b) ->
  forall l m, Forall P l -> Forall2 R l m -> Forall2 R' l m.
Proof. intros A B R R' P H l m F Q. induction Q; constructor; inversion F; subst; auto. Qed.
Lemma forall_and : forall (A : Type) (P Q : A -> Prop) l, Forall P l -> Forall Q l -> Forall (fun a => P a /\ Q a) l.
Proof. intros A P Q l F G. induction F; constructor; inversion G; subst; auto. Qed.
(** for bound types the default does not matter *)
Lemma bound_default : forall t, bound t -> forall d s, completes d t s <-> stands_for t s.
Proof.
  induction t using ty_induction; intros B d s.
  - cbn in B. split; intros Q; inversion Q; subst; destruct v; try congruence; try constructor; cbn in *; subst; try constructor; try reflexivity; try contradiction.
  - split; intros Q; inversion Q; subst; constructor.
  - cbn in B. destruct B as [B1 B2]. split; intros Q; inversion Q; subst.
    + constructor; [destruct v; try congruence; reflexivity|]. apply (IHt B2 false). assumption.
    + assert (E : d0 = or_default d v) by (destruct v; cbn in *; congruence). subst d0. constructor. apply (IHt B2). assumption.
  - cbn in B. split; intros Q; inversion Q; subst; constructor; apply (IHt B d); assumption.
  - cbn in B. split; intros Q; inversion Q; subst; constructor; apply (IHt B d); assumption.
  - apply bound_fun in B. destruct B as [B1 B2]. split; intros Q; inversion Q; subst; (constructor; [apply (IHt B1 true); assumption|]).
    + refine (forall2_imp _ _ _ _ _ _ _ _ (forall_and _ _ _ _ H B2) ltac:(eassumption)). intros a b [K1 K2] R. apply (K1 K2 true). exact R.
    + refine (forall2_imp _ _ _ _ _ _ _ _ (forall_and _ _ _ _ H B2) ltac:(eassumption)). intros a b [K1 K2] R. apply (K1 K2 true). exact R.
Qed.

(** what the compiler builds *)
Definition not_fun (t : ty) : Prop := forall r ps, t <> Fun r ps.
Fixpoint wf (t : ty) : Prop :=
  match t with
  | Atom _ _ _ => True
  | Void _ => True
  | Ptr _ _ t => wf t
  | Arr _ t => wf t /\ not_void t /\ not_ref t
  | Ref _ t => wf t /\ not_ref t
  | Fun r ps => wf r /\ not_fun r /\ bound r /\ Forall bound ps
  end.
Definition varying (v : var) : bool := is_var v Vry.

Lemma view_pick : forall v w d, v <> Unb -> (view_var (pick v w) d <-> d = or_default (varying v) w).
Proof. intros v w d H. destruct w; cbn; [destruct v; cbn; tauto|tauto|tauto]. Qed.
Lemma resolve_bound : forall t, bound t -> forall v s, v <> Unb -> (stands_for (resolve v t) s <-> stands_for t s).
Proof.
  induction t using ty_induction; intros B w s W; cbn [resolve].
  - cbn in B. replace (pick w v) with v by (destruct v; [congruence|reflexivity|reflexivity]). reflexivity.
  - reflexivity.
  - cbn in B. destruct B as [B1 B2]. replace (pick w v) with v by (destruct v; [congruence|reflexivity|reflexivity]).
    split; intros Q; inversion Q; subst; constructor; auto; apply (IHt B2 Uni); auto; discriminate.
  - cbn in B. split; intros Q; inversion Q; subst; constructor; apply (IHt B w); auto.
  - cbn in B. split; intros Q; inversion Q; subst; constructor; apply (IHt B w); auto.
  - apply bound_fun in B. destruct B as [B1 B2]. split; intros Q; inversion Q; subst; (constructor; [apply (IHt B1 w); assumption|]); clear Q.
    + match goal with U : Forall2 _ _ us |- _ => revert U end. clear IHt. revert us. induction H as [|a r' A B IH]; intros us U; inversion U; subst; constructor.
      * inversion B2; subst. apply (A (Forall_inv B2) w); auto.
      * inversion B2; subst. apply IH; auto.
    + match goal with U : Forall2 _ _ us |- _ => revert U end. clear IHt. revert us. induction H as [|a r' A B IH]; intros us U; inversion U; subst; constructor.
      * inversion B2; subst. apply (A (Forall_inv B2) w); auto.
      * inversion B2; subst. apply IH; auto.
Qed.
Lemma resolve_completes : forall t, wf t -> forall v s, v <> Unb -> (stands_for (resolve v t) s <-> completes (varying v) t s).
Proof.
  induction t using ty_induction; intros B w s W.
  - cbn [resolve]. split; intros Q; inversion Q; subst.
    + match goal with U : view_var _ _ |- _ => apply view_pick in U; auto; subst end. constructor.
    + constructor. apply view_pick; auto.
  - split; intros Q; inversion Q; subst; constructor.
  - cbn in B. cbn [resolve]. split; intros Q; inversion Q; subst.
    + match goal with U : view_var _ _ |- _ => apply view_pick in U; auto; subst end. constructor. apply (IHt B Uni); auto; discriminate.
    + constructor; [apply view_pick; auto|]. apply (IHt B Uni); auto; discriminate.
  - cbn in B. cbn [resolve]. split; intros Q; inversion Q; subst; constructor; apply (IHt (proj1 B) w); auto.
  - cbn in B. cbn [resolve]. split; intros Q; inversion Q; subst; constructor; apply (IHt (proj1 B) w); auto.
  - assert (BF : bound (Fun t ps)) by (apply bound_fun; cbn in B; tauto).
    rewrite (resolve_bound _ BF w s W). symmetry. apply bound_default. exact BF.
Qed.
Lemma resolve_is_bound : forall t, wf t -> forall v, v <> Unb -> bound (resolve v t).
Proof.
  assert (BB : forall t, bound t -> forall v, v <> Unb -> bound (resolve v t)).
  { induction t using ty_induction; intros B w W; cbn [resolve].
    - cbn in *. destruct v; cbn; congruence.
    - exact I.
    - cbn in *. destruct B as [B1 B2]. split; [destruct v; cbn; congruence|]. apply IHt; auto; discriminate.
    - apply IHt; auto.
    - apply IHt; auto.
    - apply bound_fun in B. destruct B as [B1 B2]. apply bound_fun. split; [auto|]. clear IHt. induction H; cbn; constructor; inversion B2; subst; auto. }
  induction t using ty_induction; intros B w W; cbn [resolve].
  - cbn in *. destruct v, w; cbn; congruence.
  - exact I.
  - cbn in *. split; [destruct v, w; cbn; congruence|]. apply IHt; auto; discriminate.
  - apply IHt; cbn in B; tauto.
  - apply IHt; cbn in B; tauto.
  - apply (BB (Fun t ps)); auto. apply bound_fun; cbn in B; tauto.
Qed.

(** ** Specifiers *)
Definition is_type (a : spec) : bool := match a with SQual _ => false | _ => true end.
(* what the constructor of the last specifier adds *)
Definition last_var (e : env) (l : list spec) : var :=
  match rev l with a :: _ => match spec_type e a with Some (t, true) => var_of t | _ => Unb end | [] => Unb end.
Definition has (q : qual) (l : list spec) : bool := existsb (fun a => match a, q with SQual QConst, QConst | SQual QUniform, QUniform | SQual QVarying, QVarying => true | _, _ => false end) l.
Lemma has_in : forall q l, has q l = true <-> In (SQual q) l.
Proof.
  intros q l. unfold has. rewrite existsb_exists. split.
  - intros [a [A B]]. destruct a as [| | |[| |]]; try discriminate; destruct q; try discriminate; exact A.
  - intros A. exists (SQual q). split; [exact A|]. destruct q; reflexivity.
Qed.
Definition base_of (e : env) (l : list spec) : option (option ty) :=
  match types_in l with
  | [] => Some None
  | [a] => match spec_type e a with Some (t, _) => Some (Some t) | None => None end
  | _ => None
  end.
Lemma last_var_cons : forall e a r, r <> [] -> last_var e (a :: r) = last_var e r.
Proof.
  intros e a r H. unfold last_var. cbn. destruct (rev r) eqn:E; [|reflexivity].
  apply (f_equal (@rev spec)) in E. rewrite rev_involutive in E. cbn in E. contradiction.
Qed.
Lemma specs_of_spec : forall e l, l <> [] -> specs_of e l =
  match base_of e l with
  | None => None
  | Some b => Some (DS b (Q (has QConst l) (has QUniform l || is_var (last_var e l) Uni) (has QVarying l || is_var (last_var e l) Vry)))
  end.
Proof.
  induction l as [|a r IH]; intros NE; [contradiction|]. destruct r as [|a' r'].
  - destruct a as [b| |x|[| |]]; try reflexivity.
    + unfold base_of, last_var. cbn. destruct (has_void e); reflexivity.
    + unfold base_of, last_var. cbn. destruct (lookup e x) as [t|] eqn:E; [|reflexivity]. cbn. rewrite ?E. cbn. unfold new_specs. destruct (var_of t); reflexivity.
  - specialize (IH ltac:(discriminate)). remember (a' :: r') as r eqn:Er.
    assert (EQ : specs_of e (a :: r) = match specs_of e r with
      | None => None
      | Some d => match a with
          | SQual q => Some (DS (d_base d) (add_qual q (d_quals d)))
          | _ => match spec_type e a, d_base d with Some (t, _), None => Some (DS (Some t) (d_quals d)) | _, _ => None end
          end
      end) by (subst r; destruct a; reflexivity).
    rewrite EQ, IH. rewrite (last_var_cons e a r) by (subst r; discriminate). clear IH EQ NE Er a' r'.
    destruct a as [b| |x|q].
    + unfold base_of. cbn. fold (types_in r). destruct (types_in r) as [|u [|w s]]; [reflexivity| |reflexivity]. destruct (spec_type e u) as [[? ?]|]; reflexivity.
    + unfold base_of. cbn. fold (types_in r). destruct (types_in r) as [|u [|w s]]; [reflexivity| |reflexivity]. destruct (spec_type e u) as [[? ?]|]; reflexivity.
    + unfold base_of. cbn. fold (types_in r). destruct (types_in r) as [|u [|w s]]; [|destruct (spec_type e u) as [[? ?]|]; try reflexivity; destruct (lookup e x); reflexivity|reflexivity].
      destruct (lookup e x); reflexivity.
    + unfold base_of. cbn. fold (types_in r). destruct (match types_in r with [] => Some None | [a] => _ | _ => _ end) as [b|]; [|reflexivity].
      destruct q; cbn; reflexivity.
Qed.
