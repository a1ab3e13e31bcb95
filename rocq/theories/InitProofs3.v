(** Proofs about initializers (C64): all initializers, dimensions. *)
From Coq Require Import List Bool Arith Lia Permutation.
Import ListNotations.
From Verif Require Import CastModel InitModel InitSpec InitProofs InitProofs2.

Section Proofs.
Variables (V : Type) (zero : basic -> V) (conv : basic -> basic -> V -> V) (W : nat) (mem_count : nat -> nat) (value : nat -> val V).
Hypothesis enough : forall n, n <= mem_count n.
Notation initial := (initial V zero conv W value).
Notation members := (members V zero conv W value).
Notation converted := (converted V conv W).
Notation has_type := (has_type V W).
Notation holds := (holds V W).
Notation is_zero := (is_zero V zero W).
Notation const_init := (const_init V zero conv W).
Notation zero_val := (zero_val V zero W).
Notation store := (store V mem_count).
Notation init_symbol := (init_symbol V zero conv W mem_count value).
Notation supported := (supported V).
Notation supported_members := (supported_members V).
Notation effects := (effects V).

Fixpoint init_els (ts : list ty) (l : list (init V)) (tr : list nat) {struct l} : res (list (mem V) * list nat) :=
  match l, ts with
  | [], ts => OK (map (fun t => store t (zero_val t)) ts, tr)
  | i :: l, t :: ts =>
      match init_symbol t i tr with
      | OK (m, tr) => match init_els ts l tr with OK (r, tr) => OK (m :: r, tr) | Err => Err | Crash => Crash end
      | Err => Err
      | Crash => Crash
      end
  | _ :: _, [] => Err
  end.
Definition init_loop (t : ty) (ts : list ty) (l : list (init V)) (tr : list nat) : res (mem V * list nat) :=
  match init_els ts l tr with OK (ms, tr) => OK (assemble_mem V mem_count t ms, tr) | Err => Err | Crash => Crash end.
Definition init_by_list (t : ty) (l : list (init V)) (tr : list nat) : res (mem V * list nat) :=
  match element_types W t with
  | None => Err
  | Some ts =>
      if length ts <? length l then Err
      else if is_basic t && (length l <? length ts) then Err
      else match t with
           | TV false n b =>
               if length l =? 0 then init_loop t ts l tr
               else match atomic_list V l with
                    | OK true => vector_init V conv mem_count value n b l tr
                    | OK false => init_loop t ts l tr
                    | Err => Err
                    | Crash => Crash
                    end
           | _ => init_loop t ts l tr
           end
  end.
Lemma init_list_eq : forall t l tr, const_init t (IList l) = OK None ->
  init_symbol t (IList l) tr = match l with [i] => if is_basic t then init_symbol t i tr else init_by_list t l tr | _ => init_by_list t l tr end.
Proof.
  intros t l tr E. destruct l as [|i [|j l]]; cbn [InitModel.init_symbol]; rewrite E; reflexivity.
Qed.

Definition good_init (t : ty) (i : init V) (x : val V) : Prop := forall tr, exists m tr',
  init_symbol t i tr = OK (m, tr ++ tr') /\ holds t m x /\ Permutation tr' (effects i) /\ (no_uniform_vector t = true -> tr' = effects i).

Lemma els_ok : forall ts l xs, Forall (fun i => forall t x, initial t i x -> supported t i -> good_init t i x) l ->
  members ts l xs -> supported_members ts l ->
  forall tr, exists ms tr', init_els ts l tr = OK (ms, tr ++ tr') /\ Forall2 (fun t p => holds t (fst p) (snd p)) ts (combine ms xs) /\
    length ms = length ts /\ length xs = length ts /\
    Permutation tr' (flat_map effects l) /\ (forallb no_uniform_vector ts = true -> tr' = flat_map effects l).
Proof.
  intros ts l xs F M. revert F. induction M; intros F S tr.
  - exists [], []. cbn. rewrite app_nil_r. repeat split; auto.
  - destruct (IHM F (PNil _ _) tr) as (ms & tr' & E & H1 & H2 & H3 & H4 & H5). cbn [init_els] in *.
    injection E as E1 E2. exists (store t (zero_val t) :: ms), tr'. cbn [map]. rewrite E1. rewrite <- E2 at 1.
    split; auto. split; [|cbn [length]; repeat split; auto].
    + cbn [combine]. constructor; auto. cbn. rewrite (is_zero_val _ _ _ _ _ H). apply store_holds. apply zero_type.
    + cbn. intros X. apply andb_prop in X. apply H5. tauto.
  - inversion F as [|? ? F1 F2]; subst. inversion S as [|? ? ? ? S1 S2]; subst. cbn [init_els].
    destruct (F1 _ _ H S1 tr) as (m & tr1 & E1 & Ho & P1 & O1). rewrite E1.
    destruct (IHM F2 S2 (tr ++ tr1)) as (ms & tr2 & E2 & H1 & H2 & H3 & H4 & H5). rewrite E2.
    exists (m :: ms), (tr1 ++ tr2). rewrite app_assoc. split; auto. split; [|cbn [length flat_map]; repeat split; auto].
    + cbn [combine]. constructor; auto.
    + apply Permutation_app; auto.
    + cbn. intros X. apply andb_prop in X. destruct X as (X1 & X2). rewrite O1, H5; auto.
Qed.

Lemma cells_ok : forall b n ms xs, Forall2 (fun t p => holds t (fst p) (snd p)) (repeat (TB false b) n) (combine ms xs) ->
  length ms = n -> length xs = n -> exists vs, all_cells V ms = map Some vs /\ xs = map VB vs.
Proof.
  induction n; intros ms xs F L1 L2; destruct ms; destruct xs; try discriminate.
  - exists []. auto.
  - cbn in F. inversion F as [|? ? ? ? Q1 Q2]; subst. destruct (IHn ms xs Q2) as (vs & A & B); [cbn in *; lia..|].
    cbn in Q1. inversion Q1; subst. exists (x :: vs). cbn. rewrite A. auto.
Qed.
Lemma F2_combine : forall t n (ms : list (mem V)) xs, Forall2 (fun t p => holds t (fst p) (snd p)) (repeat t n) (combine ms xs) ->
  length ms = n -> length xs = n -> Forall2 (holds t) ms xs.
Proof.
  induction n; intros ms xs F L1 L2; destruct ms; destruct xs; try discriminate; constructor; cbn in F; inversion F; subst; auto.
Qed.
Lemma forallb_repeat : forall {A} (f : A -> bool) x n, f x = true -> forallb f (repeat x n) = true.
Proof. induction n; intros; cbn; auto. rewrite H. auto. Qed.
Lemma supported_repeat : forall t n l, Forall (supported t) l -> length l <= n -> supported_members (repeat t n) l.
Proof. intros t n l F. revert n. induction F; intros [|n] L; cbn in L; try lia; constructor; auto. apply IHF. lia. Qed.
Lemma basic_supported : forall vy b l, Forall (supported (TB vy b)) l.
Proof. induction l; constructor; auto. destruct a; constructor; intros; discriminate. Qed.
Lemma atomic_other : forall es e l, e_atomic e = false -> atomic_list V (map IExpr es ++ IExpr e :: l) = OK false.
Proof. induction es as [|x es IH]; intros e l E; cbn; [rewrite E; auto|]. destruct (e_atomic x); auto. Qed.
Lemma atomic_all : forall es, (forall e : expr V, In e es -> e_atomic e = true) -> atomic_list V (map IExpr es) = OK true.
Proof. induction es as [|x es IH]; intros H; cbn; auto. rewrite (H x (or_introl eq_refl)). apply IH. intros; apply H; right; auto. Qed.

(** Through the loop: every type but a uniform basic one. *)
Lemma loop_ok : forall t ts l xs, Forall (fun i => forall t x, initial t i x -> supported t i -> good_init t i x) l ->
  element_types W t = Some ts -> members ts l xs -> supported_members ts l -> (is_basic t = true -> length l = W) -> 
  forall tr, exists m tr', init_loop t ts l tr = OK (m, tr ++ tr') /\ holds t m (assemble V t xs) /\ Permutation tr' (flat_map effects l) /\
    (no_uniform_vector t = true -> tr' = flat_map effects l).
Proof.
  intros t ts l xs F E M S B tr. destruct (els_ok _ _ _ F M S tr) as (ms & tr' & E1 & H1 & H2 & H3 & H4 & H5).
  unfold init_loop. rewrite E1. eexists. exists tr'. split; [reflexivity|]. split; [|split; auto].
  - destruct t as [vy b|vy n b|n t|ts']; cbn in E.
    + destruct vy; [|discriminate]. injection E as <-. rewrite repeat_length in *.
      destruct (cells_ok _ _ _ _ H1 H2 H3) as (vs & A & ->). cbn. rewrite A. unfold assemble. cbn [is_basic].
      rewrite all_scalars_VB. constructor. rewrite map_length in H3. auto.
    + injection E as <-. rewrite repeat_length in *. unfold assemble. cbn [is_basic]. destruct vy; cbn [assemble_mem].
      * constructor; auto. eapply F2_combine; eauto.
      * destruct (cells_ok _ _ _ _ H1 H2 H3) as (vs & A & ->). rewrite A. constructor. rewrite map_length in H3. auto.
    + injection E as <-. rewrite repeat_length in *. constructor; auto. eapply F2_combine; eauto.
    + injection E as <-. constructor; auto.
  - intros NU. apply H5. destruct t as [vy b|vy n b|n t|ts']; cbn in E; try (injection E as <-).
    + destruct vy; [|discriminate]. injection E as <-. apply forallb_repeat. auto.
    + apply forallb_repeat. auto.
    + apply forallb_repeat. auto.
    + auto.
Qed.
Lemma by_list_ok : forall t ts l xs, Forall (fun i => forall t x, initial t i x -> supported t i -> good_init t i x) l ->
  element_types W t = Some ts -> members ts l xs -> supported_members ts l -> (is_basic t = true -> length l = W) -> 
  (forall n b, t = TV false n b -> l = [] \/ atomic_list V l = OK false) ->
  forall tr, exists m tr', init_by_list t l tr = OK (m, tr ++ tr') /\ holds t m (assemble V t xs) /\ Permutation tr' (flat_map effects l) /\
    (no_uniform_vector t = true -> tr' = flat_map effects l).
Proof.
  intros t ts l xs F E M S B A tr. destruct (loop_ok _ _ _ _ F E M S B tr) as (m & tr' & Q). exists m, tr'.
  destruct Q as (Q & R). split; auto. rewrite <- Q. unfold init_by_list. rewrite E.
  destruct (members_len _ _ _ _ mem_count _ _ _ _ M) as (L & _).
  destruct (Nat.ltb_spec (length ts) (length l)); [lia|].
  replace (is_basic t && (length l <? length ts)) with false.
  2: { destruct (is_basic t) eqn:X; auto. cbn. symmetry. apply Nat.ltb_ge. rewrite B by auto. destruct t; try discriminate. destruct vy; try discriminate.
       injection E as <-. rewrite repeat_length. auto. }
  destruct t as [| [] n b | |]; auto. destruct (A n b eq_refl) as [->|X].
  - reflexivity.
  - destruct l; [reflexivity|]. rewrite X. auto.
Qed.

(** The values of the expressions of a full list for a uniform vector. *)
Lemma vector_values : forall b es n xs, length es = n -> members (repeat (TB false b) n) (map IExpr es) xs ->
  exists ps, Forall2 (fun e p => e_ty e = TB false (fst p) /\ expr_value V value e = VB (snd p)) es ps /\
    xs = map VB (map (fun p => conv (fst p) b (snd p)) ps).
Proof.
  intros b es. induction es as [|e es IH]; intros n xs L M; subst n; cbn in M; inversion M; subst.
  - exists []. split; constructor.
  - match goal with M : members _ (map _ es) _ |- _ => destruct (IH _ _ eq_refl M) as (ps & A & ->) end.
    match goal with I0 : initial _ (IExpr e) _ |- _ => inversion I0; subst end.
    match goal with C : converted _ _ _ _ |- _ => inversion C; subst end.
    exists ((b', x0) :: ps). split; [constructor; auto|]. reflexivity.
Qed.

Theorem init_ok : forall i t x, initial t i x -> supported t i -> good_init t i x.
Proof.
  induction i as [e|l IH] using init_ind'; intros t x I0 S tr.
  - destruct (const_sound _ _ _ _ mem_count _ _ _ _ I0) as [K|(K & N)].
    + cbn [InitModel.init_symbol]. change (InitModel.const_expr V conv W t e) with (const_init t (IExpr e)). rewrite K.
      inversion I0; subst. inversion S as [? ? S1| | | | | | |]; subst. rewrite eval_eq.
      rewrite (converted_convertible _ _ _ _ _ _ _ H1). rewrite (convert_ok _ _ _ _ _ _ _ H1) by eauto.
      eexists. exists (effects (IExpr e)). split; [reflexivity|]. split; auto. apply store_holds. eapply converted_type; eauto.
    + cbn [InitModel.init_symbol]. change (InitModel.const_expr V conv W t e) with (const_init t (IExpr e)). rewrite K.
      eexists. exists []. rewrite app_nil_r. rewrite N. split; [reflexivity|]. split; auto. apply store_holds. eapply initial_type; eauto.
  - destruct (const_sound _ _ _ _ mem_count _ _ _ _ I0) as [K|(K & N)].
    + rewrite (init_list_eq _ _ _ K). cbn [InitSpec.effects]. 
      assert (BR : forall i vy b, l = [i] -> t = TB vy b -> exists m tr', init_symbol t i tr = OK (m, tr ++ tr') /\ holds t m x /\
                 Permutation tr' (flat_map effects l) /\ (no_uniform_vector t = true -> tr' = flat_map effects l)).
      { intros i vy b -> ->. apply unbrace in I0. inversion IH as [|? ? Q1 Q2]; subst.
        pose proof (basic_supported vy b [i]) as BS. inversion BS; subst.
        destruct (Q1 _ _ I0 ltac:(auto) tr) as (m & tr' & R). exists m, tr'. cbn [flat_map]. rewrite app_nil_r. exact R. }
      assert (SK : forall y, x = y -> (is_basic t = true -> match l with [_] => False | _ => True end) -> 
         (exists m tr', init_by_list t l tr = OK (m, tr ++ tr') /\ holds t m y /\ Permutation tr' (flat_map effects l) /\ (no_uniform_vector t = true -> tr' = flat_map effects l)) ->
         exists m tr', match l with [i] => if is_basic t then init_symbol t i tr else init_by_list t l tr | _ => init_by_list t l tr end = OK (m, tr ++ tr') /\ holds t m x /\
           Permutation tr' (flat_map effects l) /\ (no_uniform_vector t = true -> tr' = flat_map effects l)).
      { intros y -> NB R. destruct l as [|i [|j l]]; auto. destruct (is_basic t); auto. destruct NB; auto. }
      remember (IList l) as il eqn:Eil. destruct I0 as [t e x C|vy b i x I1|b l0 vs L F2|vy n b l0 xs M|n t l0 xs M|ts l0 xs M]; try discriminate; injection Eil as Eil; try subst l0.
      * rewrite <- Eil in *. eapply BR; eauto.
      * destruct l as [|i0 [|j l]]; [| eapply BR; eauto |].
        -- eapply SK; [reflexivity|auto|]. destruct (by_list_ok (TB true b) _ _ _ IH eq_refl (lanes_members _ _ _ _ _ _ _ _ L F2) (PNil _ _) (fun _ => L) ltac:(discriminate) tr) as (m & tr' & R).
           exists m, tr'. unfold assemble in R. cbn [is_basic] in R. rewrite all_scalars_VB in R. exact R.
        -- eapply SK; [reflexivity|auto|].
           assert (SM : supported_members (repeat (TB false b) W) (i0 :: j :: l)) by (apply supported_repeat; [apply basic_supported|rewrite L; auto]).
           destruct (by_list_ok (TB true b) _ _ _ IH eq_refl (lanes_members _ _ _ _ _ _ _ _ L F2)
             SM (fun _ => L) ltac:(discriminate) tr) as (m & tr' & R).
           exists m, tr'. unfold assemble in R. cbn [is_basic] in R. rewrite all_scalars_VB in R. exact R.
      * destruct (members_len _ _ _ _ mem_count _ _ _ _ M) as (LL & LX). rewrite repeat_length in LL, LX.
        assert (SM : supported_members (repeat (TB vy b) n) l) by (apply supported_repeat; auto; apply basic_supported).
        eapply SK; [reflexivity|discriminate|].
        destruct vy.
        -- exact (by_list_ok (TV true n b) _ _ _ IH eq_refl M SM ltac:(discriminate) ltac:(discriminate) tr).
        -- destruct l as [|i0 l']; [exact (by_list_ok (TV false n b) _ _ _ IH eq_refl M SM ltac:(discriminate) ltac:(auto) tr)|].
           clear LX; inversion S as [|? ? ?|? ? ? FC|? ? es LE NB AT OT E1 E2|? ? es e l2 AT E1 E2| | |]; subst.
           ++ exfalso. rewrite const_init_list in K. unfold const_by_list in K. cbn [element_types is_basic andb] in K.
              rewrite (constants_els _ _ _ _ _ _ _ _ _ _ FC M) in K.
              rewrite repeat_length in K. destruct (Nat.ltb_spec n (length (i0 :: l'))); [lia|]. destruct l'; discriminate.
           ++ destruct (vector_values b es (length es) xs eq_refl) as (ps & TY & ->); [rewrite E2; exact M|].
              destruct (vector_ok V zero conv W mem_count value es ps TY b (length es) tr eq_refl (enough _) NB OT) as (rest & tr' & EV & PE).
              rewrite E2 in EV, PE. eexists. exists tr'.
              unfold init_by_list. cbn [element_types is_basic andb]. rewrite repeat_length.
              rewrite ?E2. destruct (Nat.ltb_spec (length es) (length (i0 :: l'))); [lia|]. cbn [length Nat.eqb].
              assert (AA : atomic_list V (i0 :: l') = OK true) by (rewrite <- E2; apply atomic_all; intros; apply AT; auto).
              rewrite AA, EV. split; [reflexivity|]. split; [|split; [auto|discriminate]].
              rewrite <- map_map with (f := fun p => conv (fst p) b (snd p)) (g := Some). constructor. rewrite map_length. symmetry. eapply F2_len; eauto.
           ++ rewrite ?E2. refine (by_list_ok (TV false n b) _ _ _ IH eq_refl M SM ltac:(discriminate) _ tr). intros ? ? _. right. rewrite <- E2. apply atomic_other. auto.
      * eapply SK; [reflexivity|discriminate|]. destruct (members_len _ _ _ _ mem_count _ _ _ _ M) as (LL & LX). rewrite repeat_length in LL, LX.
        refine (by_list_ok (TA n t) _ _ _ IH eq_refl M _ ltac:(discriminate) ltac:(discriminate) tr). apply supported_repeat; auto. inversion S; auto.
      * eapply SK; [reflexivity|discriminate|].
        refine (by_list_ok (TS ts) _ _ _ IH eq_refl M _ ltac:(discriminate) ltac:(discriminate) tr). inversion S; auto.
    + cbn [InitModel.init_symbol]. rewrite K. eexists. exists []. rewrite app_nil_r, N. split; [reflexivity|]. split; auto. apply store_holds. eapply initial_type; eauto.
Qed.

End Proofs.

(** ** Dimensions *)
Section Dims.
Variable V : Type.
Lemma size_ok : forall ds declared t i, Forall (lt 0) ds -> (forall n t', t <> TA n t') -> agrees declared ds -> shape V ds i ->
  size_unsized V (array declared t) i = Some (array ds t).
Proof.
  induction ds as [|d ds IH]; intros declared t i P NA A S; inversion A as [|d0 ? ds0 ? AD AR]; subst.
  - cbn [array]. destruct i; destruct t; try reflexivity. destruct (NA n t eq_refl).
  - destruct S as (l & -> & L & F). inversion P as [|? ? PD PR]; subst. destruct l as [|i0 l]; [cbn in PD; lia|].
    assert (N : (if d0 =? 0 then S (length l) else d0) = S (length l)).
    { destruct AD as [-> | ->]; cbn; auto. }
    cbn [array size_unsized]. rewrite N. inversion F as [|? ? F1 F2]; subst.
    destruct i0 as [e|next].
    + destruct ds as [|d1 ds]; [|destruct F1 as (? & E & _); discriminate]. inversion AR; subst. reflexivity.
    + rewrite (IH ds0 t (IList next) PR NA AR F1). cbn [option_map length].
      destruct ds as [|d1 ds]; inversion AR as [|d0' ? ds0' ? AD' AR']; subst.
      * cbn [array]. destruct t; auto. destruct (NA n t eq_refl).
      * cbn [array]. destruct d0'; auto.
        replace (forallb (fun i : init V => match i with IExpr _ => false | IList l0 => length l0 =? length next end) l) with true; auto.
        symmetry. apply forallb_forall. intros i I1. rewrite Forall_forall in F2. destruct (F2 i I1) as (li & -> & Li & _).
        destruct F1 as (ln & E & Ln & _). injection E as ->. apply Nat.eqb_eq. congruence.
Qed.
End Dims.

(** ** Errors *)
Section Errors.
Variables (V : Type) (zero : basic -> V) (conv : basic -> basic -> V -> V) (W : nat) (mem_count : nat -> nat) (value : nat -> val V).
Notation converted := (converted V conv W).
Notation has_type := (has_type V W).
Notation init_symbol := (init_symbol V zero conv W mem_count value).

Lemma length_err : forall t l tr, wrong_length V W t l -> init_symbol t (IList l) tr = Err.
Proof.
  intros t l tr H.
  destruct t as [vy b|vy n b|n t|ts]; cbn [wrong_length] in H.
  - destruct vy.
    + assert (E : const_init V zero conv W (TB true b) (IList l) = Err).
      { rewrite const_init_list. assert (B : const_by_list V zero conv W (TB true b) l = Err).
        { unfold const_by_list. cbn [element_types is_basic andb]. rewrite repeat_length.
          destruct (Nat.ltb_spec W (length l)); auto. destruct (Nat.ltb_spec (length l) W); auto. lia. }
        destruct l as [|? [|? ?]]; auto. cbn in H. lia. }
      destruct l as [|i l]; cbn [InitModel.init_symbol]; rewrite E; auto.
    + assert (E : const_init V zero conv W (TB false b) (IList l) = OK None).
      { rewrite const_init_list. destruct l as [|? [|? ?]]; auto. cbn in H. lia. }
      rewrite (init_list_eq _ _ _ _ _ _ _ _ _ E). destruct l as [|? [|? ?]]; auto. cbn in H. lia.
  - assert (E : const_init V zero conv W (TV vy n b) (IList l) = Err).
    { rewrite const_init_list. assert (B : const_by_list V zero conv W (TV vy n b) l = Err).
      { unfold const_by_list. cbn [element_types]. rewrite repeat_length. apply Nat.ltb_lt in H. rewrite H. auto. }
      destruct l as [|? [|? ?]]; auto. }
    cbn [InitModel.init_symbol]; rewrite E; auto.
  - assert (E : const_init V zero conv W (TA n t) (IList l) = Err).
    { rewrite const_init_list. assert (B : const_by_list V zero conv W (TA n t) l = Err).
      { unfold const_by_list. cbn [element_types]. rewrite repeat_length. apply Nat.ltb_lt in H. rewrite H. auto. }
      destruct l as [|? [|? ?]]; auto. }
    cbn [InitModel.init_symbol]; rewrite E; auto.
  - assert (E : const_init V zero conv W (TS ts) (IList l) = Err).
    { rewrite const_init_list. assert (B : const_by_list V zero conv W (TS ts) l = Err).
      { unfold const_by_list. cbn [element_types]. apply Nat.ltb_lt in H. rewrite H. auto. }
      destruct l as [|? [|? ?]]; auto. }
    cbn [InitModel.init_symbol]; rewrite E; auto.
Qed.

Lemma ty_eqb_eq : forall t t', ty_eqb t t' = true -> t = t'.
Proof.
  induction t using ty_ind'; intros t' E; destruct t'; cbn in E; try discriminate.
  - apply andb_prop in E. destruct E as (E1 & E2). apply Bool.eqb_prop in E1. subst. destruct b, b0; try discriminate; auto.
  - apply andb_prop in E. destruct E as (E1 & E2). apply andb_prop in E1. destruct E1 as (E0 & E1). apply Bool.eqb_prop in E0. apply Nat.eqb_eq in E1. subst.
    destruct b, b0; try discriminate; auto.
  - apply andb_prop in E. destruct E as (E1 & E2). apply Nat.eqb_eq in E1. subst. f_equal. auto.
  - f_equal. revert ts0 E. induction H; intros [|y l'] E; try discriminate; auto. apply andb_prop in E. destruct E as (E1 & E2). f_equal; auto.
Qed.
Lemma basic_convertible : forall vy vy' b b' v, (vy' = true -> vy = true) -> has_type (TB vy' b') v -> exists x, converted (TB vy b) (TB vy' b') v x.
Proof.
  intros vy vy' b b' v H T. inversion T; subst; destruct vy; try (specialize (H eq_refl); discriminate); eexists; constructor; auto.
Qed.
Lemma convertible_converted : forall t t' v, convertible t t' = true -> has_type t' v -> exists x, converted t t' v x.
Proof.
  assert (B : forall vy vy', vy || negb vy' = true -> vy' = true -> vy = true) by (intros [] []; auto).
  intros t t' v C T. destruct t as [vy b|vy n b|n t|ts], t' as [vy' b'|vy' n' b'|n' t'|ts']; cbn [convertible] in C; try discriminate.
  - eapply basic_convertible; eauto.
  - destruct (basic_convertible vy vy' b b' v (B _ _ C) T) as (x & X). eexists. constructor. eauto.
  - apply andb_prop in C. destruct C as (C1 & C2). apply Nat.eqb_eq in C2. subst n'. inversion T as [| |? ? ? l L F| |]; subst.
    assert (G : exists l', Forall2 (converted (TB vy b) (TB vy' b')) l l').
    { clear T. induction F as [|v l Fv F IH]; [exists []; constructor|].
      destruct IH as (l' & L'). destruct (basic_convertible vy vy' b b' v (B _ _ C1) Fv) as (x & X). exists (x :: l'). constructor; auto. }
    destruct G as (l' & G). eexists. constructor; eauto.
  - apply ty_eqb_eq in C. injection C as <-. eexists. constructor. auto.
Qed.
Lemma convert_err : forall t e tr, has_type (e_ty e) (value (e_id e)) -> e_const e = None ->
  (forall x, ~ converted t (e_ty e) (value (e_id e)) x) -> init_symbol t (IExpr e) tr = Err.
Proof.
  intros t e tr T K N. cbn. unfold InitModel.const_expr. rewrite K. unfold InitModel.eval. rewrite K. cbn.
  destruct (convertible t (e_ty e)) eqn:C; auto. destruct (convertible_converted _ _ _ C T) as (x & X). destruct (N x X).
Qed.

(** ** One meaning *)
Lemma is_zero_unique : forall t x y, is_zero V zero W t x -> is_zero V zero W t y -> x = y.
Proof. intros t x y A B. rewrite (is_zero_val _ _ _ _ _ A), (is_zero_val _ _ _ _ _ B). auto. Qed.
Lemma converted_unique : forall t t' v x y, converted t t' v x -> converted t t' v y -> x = y.
Proof.
  assert (B : forall vy vy' b b' v x y, converted (TB vy b) (TB vy' b') v x -> converted (TB vy b) (TB vy' b') v y -> x = y).
  { intros vy vy' b b' v x y A B. inversion A; subst; inversion B; subst; auto. }
  intros t t' v x y A C. inversion A; subst; inversion C; subst; auto.
  - f_equal. f_equal. eauto.
  - f_equal. match goal with F1 : Forall2 _ l l', F2 : Forall2 _ l ?l2 |- _ = ?l2 => clear - B F1 F2; revert l2 F2; induction F1; intros l2 F2; inversion F2; subst; auto end.
    f_equal; eauto.
Qed.
Notation initial := (initial V zero conv W value).
Lemma initial_unique : forall t i x y, initial t i x -> initial t i y -> x = y.
Proof.
  assert (M : forall l, Forall (fun i => forall t x y, initial t i x -> initial t i y -> x = y) l ->
            forall ts xs ys, members V zero conv W value ts l xs -> members V zero conv W value ts l ys -> xs = ys).
  { intros l F ts xs ys A. revert F ys. induction A; intros F ys B; inversion B; subst; auto.
    - f_equal; auto. eapply is_zero_unique; eauto.
    - inversion F; subst. f_equal; eauto. }
  intros t i. revert t. induction i as [e|l IH] using init_ind'; intros t x y A B.
  - inversion A; subst; inversion B; subst. eapply converted_unique; eauto.
  - remember (IList l) as il eqn:E. destruct t as [vy b|vy n b|n t|ts].
    + assert (U : forall i, l = [i] -> x = y).
      { intros i ->. subst il. apply unbrace in A. apply unbrace in B. inversion IH; subst. eauto. }
      remember (TB vy b) as t eqn:Et.
      destruct A as [|vy1 b1 i1 x1 A1|b1 l1 vs1 L1 F1| | |]; try discriminate; [injection E as E; eauto|].
      injection Et as <- ->. assert (Et : TB true b = TB true b) by auto. revert Et. generalize (TB true b) at 1 as t. 
      intros t Et.
      assert (R : forall t il, initial t il y -> t = TB true b -> il = IList l -> VL vs1 = y); [|eapply R; eauto; congruence].
      clear t Et. intros t il0 B0 Et Ei. destruct B0 as [|vy2 b2 i2 x2 B1|b2 l2 vs2 L2 F2| | |]; try discriminate; [injection Ei as Ei; eauto|].
      injection Ei as ->. injection Et as ->. injection E as ->. f_equal.
      clear - IH F1 F2. revert vs2 F2 IH. induction F1; intros vs2 F2 IH; inversion F2; subst; auto. inversion IH; subst. f_equal; auto.
      assert (Q : VB y = VB y0) by eauto. injection Q; auto.
    + subst il. inversion A; subst; inversion B; subst. f_equal. eapply M; eauto.
    + subst il. inversion A; subst; inversion B; subst. f_equal. eapply M; eauto.
    + subst il. inversion A; subst; inversion B; subst. f_equal. eapply M; eauto.
Qed.
End Errors.
