(** Deduction finds the choice that makes all parameters exact, stated with the parameters given in the
    call. *)
From Coq Require Import ZArith NArith Bool Ascii List Lia.
From Verif Require Import TemplModel TemplSpec TemplProofs TemplProofs2.
Import ListNotations.

Lemma init_env_given : forall ps args e, init_env ps args e = init_env (firstn (length args) ps) args e.
Proof.
  induction ps as [|p ps IH]; intros [|a args] e; cbn; try reflexivity. apply IH.
Qed.
Lemma init_env_out : forall ps args e x, ~ In x (map tparam_name ps) -> lookup (init_env ps args e) x = lookup e x.
Proof.
  induction ps as [|p ps IH]; intros [|a args] e x H; cbn; try reflexivity.
  rewrite IH by (cbn in H; tauto). rewrite lookup_add.
  destruct (name_eqb (tparam_name p) x) eqn:E; [|reflexivity]. apply name_eqb_true in E. cbn in H. tauto.
Qed.
Lemma chosen_stands : forall s p, stands_for s p (chosen s p).
Proof. destruct p; cbn; reflexivity. Qed.
Lemma chosen_stands_all : forall s ps, Forall2 (stands_for s) ps (map (chosen s) ps).
Proof. induction ps; cbn; constructor; auto using chosen_stands. Qed.

Lemma type_dep_ordinary : forall t, ordinary t -> is_type_dep t = false.
Proof. induction t; cbn; tauto. Qed.
Lemma dep_unbound : forall d t, is_type_dep (resolve_unbound d t) = is_type_dep t.
Proof.
  intros d t. revert d. induction t; intros d; cbn; auto.
  - destruct (vr_eqb v Unb); reflexivity.
  - destruct (vr_eqb v Unb); reflexivity.
Qed.
Lemma count_unbound : forall d t, is_count_dep (resolve_unbound d t) = is_count_dep t.
Proof. destruct t; cbn; auto; destruct (vr_eqb v Unb); reflexivity. Qed.

Lemma count_ordinary : forall t, ordinary t -> is_count_dep t = false.
Proof. destruct t; cbn; try tauto; destruct n; tauto. Qed.

Lemma meaning_dep : forall s ps d p, (forall x, In (PType x) ps -> ordinary (c_type s x)) -> closed_value ps p ->
  is_type_dep (meaning s d p) = false /\ is_count_dep (meaning s d p) = false.
Proof.
  intros s ps d p TY. revert d. induction p; intros d H; cbn [closed_value] in H; try contradiction.
  - split; reflexivity.
  - cbn [meaning]. pose proof (TY x H) as O.
    assert (OK : ordinary (keyword v (c_type s x))) by (destruct v; cbn; auto; apply ordinary_with_var; auto; discriminate).
    destruct c; [|split; [apply type_dep_ordinary | apply count_ordinary]; assumption].
    assert (O2 := ordinary_with_const true _ OK).
    split; [apply type_dep_ordinary | apply count_ordinary]; assumption.
  - cbn. split; [apply IHp; assumption | reflexivity].
  - cbn. split; [apply IHp; tauto|]. destruct n; reflexivity.
  - cbn. split; [apply IHp; tauto|]. destruct n; reflexivity.
Qed.

Section Given.
  Variable t : templ.
  Variable s : choice.
  Variable k : nat.
  Hypothesis names : NoDup (map tparam_name (t_parms t)).
  Hypothesis types : forall x, In (PType x) (t_parms t) -> ordinary (c_type s x).
  Hypothesis counts : forall y b, In (PNon y b) (t_parms t) -> (0 < c_num s y)%N /\ length y <= 15.
  Hypothesis small : k < length (t_parms t).
  Let given := firstn k (t_parms t).
  Let e0 := init_env (t_parms t) (firstn k (map (chosen s) (t_parms t))) [].

  Lemma e0_eq : e0 = init_env given (map (chosen s) given) [].
  Proof.
    unfold e0, given. rewrite firstn_map, init_env_given, map_length, firstn_length, Nat.min_l by lia. reflexivity.
  Qed.
  Lemma given_in : forall p, In p given -> In p (t_parms t).
  Proof. intros p H. rewrite <- (firstn_skipn k (t_parms t)). apply in_or_app. left. exact H. Qed.
  Lemma given_names : NoDup (map tparam_name given).
  Proof.
    unfold given. rewrite <- (firstn_skipn k (t_parms t)), map_app in names.
    revert names. generalize (map tparam_name (firstn k (t_parms t))) (map tparam_name (skipn k (t_parms t))).
    induction l as [|x l IH]; cbn; intros l2 H; constructor; inversion H; subst.
    - intros X. apply H2. apply in_or_app. left. assumption.
    - eapply IH; eauto.
  Qed.
  Lemma given_known : forall p, In p (t_parms t) -> (lookup e0 (tparam_name p) <> None <-> In p given).
  Proof.
    intros p Hp. rewrite e0_eq. split.
    - intros H. destruct (in_dec (list_eq_dec ascii_dec) (tparam_name p) (map tparam_name given)) as [Y|Y].
      + apply in_map_iff in Y. destruct Y as (q & E & Hq).
        rewrite <- (same_param t names q p (given_in q Hq) Hp E). assumption.
      + rewrite init_env_out in H by assumption. destruct (H eq_refl).
    - intros H. destruct (init_env_stands s given _ [] (chosen_stands_all s given) given_names p H) as (a & E & _).
      rewrite E. discriminate.
  Qed.

  Lemma left_dep : forall p, closed_value given p ->
    is_type_dep (resolve_dep e0 p) = false /\ is_count_dep (resolve_dep e0 p) = false.
  Proof.
    intros p H. assert (TG : forall x, In (PType x) given -> ordinary (c_type s x)) by (intros; apply types, given_in; auto).
    assert (CG : forall y b, In (PNon y b) given -> (0 < c_num s y)%N) by (intros; eapply counts, given_in; eauto).
    pose proof (meaning_value (Templ given [] (t_ret t)) s (map (chosen s) given) given_names (chosen_stands_all s given)
                  TG CG p Uni H) as M. cbn [t_parms] in M. rewrite <- e0_eq in M.
    destruct (meaning_dep s given Uni p TG H) as [A B]. rewrite <- M in A, B.
    rewrite dep_unbound in A. rewrite count_unbound in B. auto.
  Qed.
  Lemma left_dep_target : forall p, closed_value given (target p) -> is_dep (resolve_dep e0 p) = false.
  Proof.
    intros p H. unfold is_dep. destruct (left_dep _ H) as [A B].
    destruct p; cbn [target] in *; try (rewrite A, B; reflexivity).
    cbn. rewrite A. reflexivity.
  Qed.

  Theorem finds_choice : forall args,
    Forall2 (fun p a => nothing_left given p a \/ suits t s given p a) (map fst (t_params t)) args ->
    (forall p, In p (skipn k (t_parms t)) -> exists q, In q (map fst (t_params t)) /\ made_of (tparam_name p) q) ->
    template_args t (map (chosen s) given) args = Match (map (chosen s) (t_parms t)).
  Proof.
    intros args F M. unfold given. rewrite <- firstn_map. apply complete_choice; auto. cbv zeta. fold e0. split.
    - clear M. induction F as [|p a ps args H F IH]; constructor; auto. clear IH F.
      destruct H as [[A C]|(A & X & [(x & c & Hx & P & K)|(x & y & Hx & Hy & V & K & IFF)])].
      + split; [assumption|]. left. apply left_dep_target. assumption.
      + split; [assumption|]. right. left. exists x, c. auto.
      + split; [assumption|]. right. right. exists x, y. split; [repeat split; auto|].
        destruct Hy as [b Hy].
        unfold known. rewrite (given_known (PType x) Hx : lookup e0 x <> None <-> _).
        rewrite (given_known (PNon y b) Hy : lookup e0 y <> None <-> _).
        unfold type_given, number_given in IFF. rewrite IFF. split; [|eauto].
        intros [b' H']. rewrite <- (same_param t names (PNon y b') (PNon y b)); auto. apply given_in; assumption.
    - intros p Hp. destruct (M p Hp) as (q & Hq & D). exists q. split; [assumption|]. split; [|exact D].
      assert (Pin : In p (t_parms t)) by (rewrite <- (firstn_skipn k (t_parms t)); apply in_or_app; right; assumption).
      assert (NG : ~ In p given).
      { intros G. rewrite <- (firstn_skipn k (t_parms t)), map_app in names. fold given in names.
        revert names. apply (in_map tparam_name) in G. apply (in_map tparam_name) in Hp. revert G Hp.
        generalize (map tparam_name given) (map tparam_name (skipn k (t_parms t))) (tparam_name p).
        induction l as [|y l IH]; cbn; intros l2 z G Z N; [contradiction|]. inversion N; subst.
        destruct G as [->|G]; [apply H1, in_or_app; auto | eapply IH; eauto]. }
      assert (UN : lookup e0 (tparam_name p) = None).
      { destruct (lookup e0 (tparam_name p)) eqn:E; [|reflexivity]. destruct NG. apply given_known; congruence. }
      (* the parameter of the function that is made of p *)
      assert (HQ : exists a, nothing_left given q a \/ suits t s given q a).
      { clear - F Hq. induction F; [destruct Hq|]. destruct Hq as [->|Hq]; eauto. }
      destruct HQ as (a & HQ).
      assert (TD : forall x, lookup e0 x = None -> forall u v, is_type_dep (resolve_dep e0 (Parm u v x)) = true).
      { intros x E u v. cbn. unfold inst_type. rewrite E. reflexivity. }
      assert (PD : forall x c r, pointers_to x c r -> lookup e0 x = None -> is_type_dep (resolve_dep e0 r) = true).
      { intros x c. induction r; cbn [pointers_to]; intros Hr E; try contradiction.
        - destruct v; try contradiction. destruct Hr as [-> _]. apply TD. assumption.
        - cbn. apply IHr; assumption. }
      assert (TT : is_type_dep (resolve_dep e0 (target q)) = true -> is_dep (resolve_dep e0 q) = true).
      { unfold is_dep. destruct q; cbn [target]; intros E; try (rewrite E; reflexivity). cbn. rewrite E. reflexivity. }
      apply TT. clear TT. destruct D as [(c & P)|(y & [V|V])].
      + eapply PD; eauto.
      + rewrite V. exact (TD _ UN Unb false).
      + destruct HQ as [[_ C]|(_ & _ & [(x & c & _ & P & _)|(x & z & Hx & Hy & V' & _ & IFF)])].
        * rewrite V in C. cbn in C. destruct C as [_ [b C]]. exfalso.
          apply NG. rewrite (same_param t names p (PNon (tparam_name p) b)); auto. apply given_in; assumption.
        * rewrite V in P. destruct P.
        * unfold vector_of in V, V'. rewrite V in V'. injection V' as E1 E2. subst z y.
          rewrite V. apply (fun H => TD x H Unb false).
          destruct (lookup e0 x) eqn:E; [|reflexivity]. exfalso.
          assert (G : In (PType x) given) by (apply given_known; [assumption | cbn; rewrite E; discriminate]).
          apply IFF in G. destruct G as [b' G]. apply NG.
          rewrite (same_param t names p (PNon (tparam_name p) b')); auto. apply given_in; assumption.
  Qed.
End Given.
