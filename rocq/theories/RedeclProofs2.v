From Coq Require Import ZArith List Bool Lia.
From Verif Require Import RedeclModel RedeclSpec RedeclProofs.
Import ListNotations.
Local Open Scope Z_scope.

Definition bodies_of (h : list item) : list (Z * ftype * Z) :=
  flat_map (fun i => match i with IFun d (Some b) => [(fd_name d, fd_type d, b)] | _ => [] end) h.
Lemma bodies_of_app h i : bodies_of (h ++ [i]) =
  bodies_of h ++ match i with IFun d (Some b) => [(fd_name d, fd_type d, b)] | _ => [] end.
Proof. unfold bodies_of. rewrite flat_map_app. cbn. now rewrite app_nil_r. Qed.
Lemma fun_decls_app n h i : fun_decls n (h ++ [i]) =
  fun_decls n h ++ match i with IFun d _ => if fd_name d =? n then [d] else [] | IVar _ => [] end.
Proof. unfold fun_decls. rewrite flat_map_app. cbn. now rewrite app_nil_r. Qed.

(** The declarations of one function. *)
Definition decls_of (n : Z) (t : ftype) (h : list item) : list fdecl :=
  filter (fun d => ftype_eqb t (fd_type d)) (fun_decls n h).

Definition apart (f g : fsym) : Prop :=
  s_name f = s_name g -> f_params (s_type f) <> f_params (s_type g) /\
    f_kind (s_type f) <> KExport /\ f_kind (s_type g) <> KExport /\ f_kind (s_type g) <> KExternC.
Record funs_ok (h : list item) (s : state) : Prop := {
  fo_first : forall f, In f (funs s) -> exists d0 ds, decls_of (s_name f) (s_type f) h = d0 :: ds /\
     s_class f = fd_class d0 /\ s_inline f = (fd_inline d0 && negb (fkind_eqb (f_kind (s_type f)) KExternC));
  fo_all : forall n d, In d (fun_decls n h) -> exists f, In f (funs s) /\ s_name f = n /\ same_type (s_type f) (fd_type d);
  fo_pairs : ForallOrdPairs apart (funs s);
  fo_new : forall f, In f (funs s) -> s_code f = None /\ s_app f = None /\ s_internal f = false;
  fo_bodies : bodies s = bodies_of h;
  fo_task : forall f, In f (funs s) -> f_kind (s_type f) = KTask -> f_ret (s_type f) = void;
  fo_disj : forall g f, In g (vars s) -> In f (funs s) -> g_name g <> s_name f
}.

Lemma FOP_app {A} (R : A -> A -> Prop) l x : ForallOrdPairs R l -> Forall (fun a => R a x) l -> ForallOrdPairs R (l ++ [x]).
Proof.
  induction 1 as [|a l H1 H2 IH]; intros F; cbn.
  - constructor; constructor.
  - inversion F; subst. constructor; [|now apply IH]. apply Forall_app. split; [easy|]. now constructor.
Qed.
Lemma FOP_map {A} (R : A -> A -> Prop) (f : A -> A) l :
  (forall a b, R a b -> R (f a) (f b)) -> ForallOrdPairs R l -> ForallOrdPairs R (map f l).
Proof.
  intros H. induction 1 as [|a l H1 H2 IH]; cbn; constructor; [|easy].
  rewrite Forall_forall in *. intros y Hy. apply in_map_iff in Hy as (x & <- & Hx). auto.
Qed.

Lemma overloads_same t : forall fs e0 e, overloads e0 t fs = Same e -> exists f, In f fs /\ same_type (s_type f) t.
Proof.
  induction fs as [|f fs IH]; intros e0 e; cbn; [discriminate|]. destruct (ftype_eqb (s_type f) t) eqn:E.
  - intros _. exists f. split; [now left|now apply ftype_eqb_spec].
  - destruct (tys_eqb _ _); [discriminate|]. intros H. apply IH in H as (g & H1 & H2). exists g. split; [now right|easy].
Qed.
Lemma overloads_new t : forall fs e0, overloads e0 t fs = New false ->
  forall f, In f fs -> ~ same_type (s_type f) t /\ f_params (s_type f) <> f_params t /\
    f_kind t <> KExport /\ f_kind (s_type f) <> KExport.
Proof.
  assert (M : forall t fs e, overloads true t fs = New e -> e = true).
  { clear. intros t. induction fs as [|f fs IH]; intros e; cbn; [congruence|]. destruct (ftype_eqb _ _); [discriminate|].
    destruct (tys_eqb _ _); [discriminate|]. apply IH. }
  induction fs as [|f fs IH]; intros e0 H g Hg; [destruct Hg|]. cbn in H.
  destruct (ftype_eqb (s_type f) t) eqn:E; [discriminate|]. destruct (tys_eqb (f_params (s_type f)) (f_params t)) eqn:P; [discriminate|].
  destruct Hg as [<-|Hg]; [|now apply (IH _ H)].
  destruct (e0 || fkind_eqb (f_kind t) KExport || fkind_eqb (f_kind (s_type f)) KExport) eqn:X.
  { apply M in H. discriminate. }
  apply orb_false_elim in X as [X X3]. apply orb_false_elim in X as [_ X2].
  repeat split.
  - intros Y. apply ftype_eqb_spec in Y. congruence.
  - intros Y. apply tys_eqb_spec in Y. congruence.
  - intros Y. apply fkind_eqb_spec in Y. congruence.
  - intros Y. apply fkind_eqb_spec in Y. congruence.
Qed.

Lemma in_lookup_funs n fs f : In f (lookup_funs n fs) <-> In f fs /\ s_name f = n.
Proof. unfold lookup_funs. rewrite filter_In, Z.eqb_eq. tauto. Qed.

Lemma decls_of_app n t h d b : decls_of n t (h ++ [IFun d b]) =
  decls_of n t h ++ (if (fd_name d =? n) && ftype_eqb t (fd_type d) then [d] else []).
Proof.
  unfold decls_of. rewrite fun_decls_app, filter_app. f_equal. destruct (fd_name d =? n); [|reflexivity]. cbn.
  now destruct (ftype_eqb t (fd_type d)).
Qed.
Lemma decls_of_same n t t' h : same_type t t' -> decls_of n t h = decls_of n t' h.
Proof.
  intros E. unfold decls_of. apply filter_ext. intros d.
  destruct (ftype_eqb t (fd_type d)) eqn:A, (ftype_eqb t' (fd_type d)) eqn:B; try reflexivity.
  - apply ftype_eqb_spec in A. assert (Y : same_type t' (fd_type d)) by (eapply same_trans; [apply same_sym|]; eassumption).
    apply ftype_eqb_spec in Y. congruence.
  - apply ftype_eqb_spec in B. assert (Y : same_type t (fd_type d)) by (eapply same_trans; eassumption).
    apply ftype_eqb_spec in Y. congruence.
Qed.
Lemma decls_of_var n t h d : decls_of n t (h ++ [IVar d]) = decls_of n t h.
Proof. unfold decls_of. rewrite fun_decls_app. now rewrite app_nil_r. Qed.

Lemma hd_app {A} (l m : list A) x xs : l = x :: xs -> exists ys, l ++ m = x :: ys.
Proof. intros ->. cbn. eauto. Qed.

(** A declaration of a function, leaving the list of bodies out. *)
Lemma step_fun h s d b : funs_ok h s -> err (add_fun s d) = false -> err s = false ->
  bodies_of (h ++ [IFun d b]) = bodies_of h ->
  funs_ok (h ++ [IFun d b]) (add_fun s d) /\ vars (add_fun s d) = vars s.
Proof.
  intros [F1 F2 F3 F4 F5 F6 F7] E Es Hb. revert E. unfold add_fun.
  destruct (lookup_var (fd_name d) (vars s)) eqn:LV; [discriminate|]. cbv zeta.
  destruct (overloads false (fd_type d) (lookup_funs (fd_name d) (funs s))) as [e| |e] eqn:O.
  - rewrite err_if. intros E. apply orb_false_elim in E as [-> _]. cbn [error_if]. split; [|reflexivity].
    apply overloads_same in O as (f0 & I0 & S0). apply in_lookup_funs in I0 as [I0 N0].
    constructor; auto.
    + intros f Hf. destruct (F1 f Hf) as (d0 & ds & E1 & E2 & E3). rewrite decls_of_app.
      destruct (hd_app _ (if (fd_name d =? s_name f) && ftype_eqb (s_type f) (fd_type d) then [d] else []) _ _ E1) as (ys & Ey).
      exists d0, ys. auto.
    + intros n d1 H1. rewrite fun_decls_app in H1. apply in_app_or in H1 as [H1|H1]; [now apply F2|].
      destruct (Z.eqb_spec (fd_name d) n) as [<-|]; [|destruct H1]. destruct H1 as [<-|[]]. exists f0. auto.
    + now rewrite Hb.
  - discriminate.
  - destruct (fkind_eqb (f_kind (fd_type d)) KExternC && _) eqn:X; [discriminate|]. cbn [err]. rewrite !err_if.
    intros E. apply orb_false_elim in E as [ET E]. apply orb_false_elim in E as [-> _]. rewrite ET. cbn [error_if vars funs bodies].
    cbn [error_if] in X. pose proof (overloads_new _ _ _ O) as N. split; [|reflexivity].
    set (f' := {| s_name := _ |}). constructor; cbn [vars funs bodies].
    + intros f Hf. rewrite decls_of_app. apply in_app_or in Hf as [Hf|[<-|[]]].
      * destruct (F1 f Hf) as (d0 & ds & E1 & E2 & E3).
        destruct (hd_app _ (if (fd_name d =? s_name f) && ftype_eqb (s_type f) (fd_type d) then [d] else []) _ _ E1) as (ys & Ey).
        exists d0, ys. auto.
      * cbn [f' s_name s_type s_class s_inline]. rewrite Z.eqb_refl. cbn [andb].
        replace (ftype_eqb (fd_type d) (fd_type d)) with true by (symmetry; apply ftype_eqb_spec, same_refl).
        assert (decls_of (fd_name d) (fd_type d) h = []) as ->.
        { destruct (decls_of (fd_name d) (fd_type d) h) as [|d1 ds] eqn:Y; [reflexivity|].
          assert (I1 : In d1 (decls_of (fd_name d) (fd_type d) h)) by (rewrite Y; now left).
          unfold decls_of in I1. apply filter_In in I1 as [I1 I2]. apply ftype_eqb_spec in I2.
          destruct (F2 _ _ I1) as (f & G1 & G2 & G3). destruct (N f) as [N1 _]; [now apply in_lookup_funs|].
          destruct N1. eapply same_trans; [exact G3|now apply same_sym]. }
        exists d, []. auto.
    + intros n d1 H1. rewrite fun_decls_app in H1. apply in_app_or in H1 as [H1|H1].
      * destruct (F2 _ _ H1) as (f & G1 & G2 & G3). exists f. split; [apply in_or_app; now left|auto].
      * destruct (Z.eqb_spec (fd_name d) n) as [<-|]; [|destruct H1]. destruct H1 as [<-|[]].
        exists f'. split; [apply in_or_app; right; now left|]. split; [reflexivity|apply same_refl].
    + apply FOP_app; [easy|]. apply Forall_forall. intros f Hf En. cbn [f' s_name s_type] in *.
      assert (If : In f (lookup_funs (fd_name d) (funs s))) by now apply in_lookup_funs.
      destruct (N f If) as (N1 & N2 & N3 & N4). repeat split; auto. intros Y. rewrite Y in X. cbn in X.
      destruct (lookup_funs (fd_name d) (funs s)); [destruct If|discriminate].
    + intros f Hf. apply in_app_or in Hf as [Hf|[<-|[]]]; [now apply F4|]. auto.
    + now rewrite Hb.
    + intros f Hf. apply in_app_or in Hf as [Hf|[<-|[]]]; [now apply F6|]. cbn [f' s_type]. intros K. rewrite K in ET. cbn in ET.
      apply negb_false_iff in ET. now apply ty_eqb_spec in ET.
    + intros g f Hg Hf. apply in_app_or in Hf as [Hf|[<-|[]]]; [now apply F7|]. now apply (lookup_var_none _ _ _ LV).
Qed.

Lemma set_type_spec n t f : s_name (set_type n t f) = s_name f /\ same_type (s_type (set_type n t f)) (s_type f) /\
  s_class (set_type n t f) = s_class f /\ s_inline (set_type n t f) = s_inline f /\ s_code (set_type n t f) = s_code f /\
  s_app (set_type n t f) = s_app f /\ s_internal (set_type n t f) = s_internal f.
Proof.
  unfold set_type. destruct (s_name f =? n); cbn; [|repeat split].
  destruct (ftype_eqb (s_type f) t) eqn:E; cbn; [|repeat split]. apply ftype_eqb_spec in E.
  split; [easy|]. split; [now apply same_sym|auto].
Qed.

Lemma step_body h s d b : funs_ok (h ++ [IFun d None]) s -> funs_ok (h ++ [IFun d (Some b)]) (add_body s d b) /\
  vars (add_body s d b) = vars s.
Proof.
  intros [F1 F2 F3 F4 F5 F6 F7].
  assert (Ed : forall n t, decls_of n t (h ++ [IFun d (Some b)]) = decls_of n t (h ++ [IFun d None])) by (intros; now rewrite !decls_of_app).
  assert (Ef : forall n, fun_decls n (h ++ [IFun d (Some b)]) = fun_decls n (h ++ [IFun d None])) by (intros; now rewrite !fun_decls_app).
  unfold add_body. destruct (lookup_fun (fd_name d) (fd_type d) (funs s)) as [fx|] eqn:L.
  2:{ destruct (F2 (fd_name d) d) as (f & G1 & G2 & G3).
      { rewrite fun_decls_app, Z.eqb_refl. apply in_or_app. right. now left. }
      unfold lookup_fun in L. apply (find_none _ _ L) in G1. rewrite G2, Z.eqb_refl in G1. cbn in G1.
      apply ftype_eqb_spec in G3. congruence. }
  split; [|reflexivity]. set (st := set_type (fd_name d) (fd_type d)). pose proof (set_type_spec (fd_name d) (fd_type d)) as S.
  fold st in S. constructor; cbn [vars funs bodies].
  - intros f Hf. apply in_map_iff in Hf as (f0 & <- & H0). destruct (S f0) as (S1 & S2 & S3 & S4 & _).
    rewrite S1, S3, S4, Ed, (decls_of_same _ _ _ _ S2). destruct S2 as (_ & _ & -> & _). now apply F1.
  - intros n d1 H1. rewrite Ef in H1. destruct (F2 _ _ H1) as (f & G1 & G2 & G3). destruct (S f) as (S1 & S2 & _).
    exists (st f). split; [now apply in_map|]. split; [congruence|]. eapply same_trans; eassumption.
  - apply FOP_map; [|easy]. intros f g R. unfold apart in *. destruct (S f) as (-> & (_ & -> & -> & _) & _).
    destruct (S g) as (-> & (_ & -> & -> & _) & _). exact R.
  - intros f Hf. apply in_map_iff in Hf as (f0 & <- & H0). destruct (S f0) as (_ & _ & _ & _ & -> & -> & ->). now apply F4.
  - rewrite F5, !bodies_of_app. now rewrite app_nil_r.
  - intros f Hf. apply in_map_iff in Hf as (f0 & <- & H0). destruct (S f0) as (_ & (-> & _ & -> & _) & _). now apply F6.
  - intros g f Hg Hf. apply in_map_iff in Hf as (f0 & <- & H0). destruct (S f0) as (-> & _). now apply F7.
Qed.

Lemma read_ok h : err (read h) = false -> vars_ok h (read h) /\ funs_ok h (read h).
Proof.
  induction h as [|i h IH] using rev_ind; intros E.
  - split; constructor; cbn; try tauto; try easy. constructor.
  - destruct (IH (read_ok_prefix _ _ E)) as [V F]. pose proof (read_ok_prefix _ _ E) as E0. rewrite read_app in *.
    destruct i as [d|d [b|]]; cbn [step] in *.
    + destruct (step_var h _ d V E) as (V' & Hf & Hb & Hn & Hv). split; [exact V'|]. destruct F as [F1 F2 F3 F4 F5 F6 F7].
      constructor; rewrite ?Hf, ?Hb; auto.
      * intros f If. rewrite decls_of_var. now apply F1.
      * intros n d1. rewrite fun_decls_app, app_nil_r. apply F2.
      * rewrite bodies_of_app, app_nil_r. exact F5.
      * intros g f Hg If. destruct (Hv g Hg) as [->|Hg']; [|now apply F7].
        intros Y. assert (In f (lookup_funs (d_name d) (funs (read h)))) as Z by now apply in_lookup_funs.
        rewrite Hn in Z. destruct Z.
    + rewrite add_body_err in E.
      destruct (step_fun h _ d None F E E0) as [F' V']; [rewrite bodies_of_app; apply app_nil_r|].
      destruct (step_body h _ d b F') as [F'' V'']. split; [|exact F''].
      destruct V as [V1 V2]. constructor; rewrite V'', V'.
      * intros g Hg. apply var_ok_other; [discriminate|auto].
      * intros n. rewrite var_decls_app, app_nil_r. apply V2.
    + destruct (step_fun h _ d None F E E0) as [F' V']; [rewrite bodies_of_app; apply app_nil_r|]. split; [|exact F'].
      destruct V as [V1 V2]. constructor; rewrite V'.
      * intros g Hg. apply var_ok_other; [discriminate|auto].
      * intros n. rewrite var_decls_app, app_nil_r. apply V2.
Qed.
