(** Proofs about ArgsModel. *)
From Coq Require Import ZArith List Bool Lia Arith.
From Verif Require Import ArgsModel ArgsSpec.
Import ListNotations.
Local Open Scope Z_scope.

Lemma isspace_iff c : isspace c = true <-> space c.
Proof.
  unfold isspace, space. cbn [In]. rewrite orb_true_iff, andb_true_iff, Z.eqb_eq, !Z.leb_le. lia.
Qed.
Lemma isspace_false c : ~ space c -> isspace c = false.
Proof. intros H. destruct (isspace c) eqn:E; [|reflexivity]. now apply isspace_iff in E. Qed.
Lemma space_true c : space c -> isspace c = true.
Proof. apply isspace_iff. Qed.

Lemma skip_spaces s r : spaces s -> skip (s ++ r) = skip r.
Proof. induction 1 as [|c s H _ IH]; cbn; [reflexivity|]. now rewrite (space_true c H). Qed.
Lemma skip_length s : (length (skip s) <= length s)%nat.
Proof. induction s as [|c s IH]; cbn; [lia|]. destruct (isspace c); cbn; lia. Qed.
Lemma skip_split s : exists p, s = p ++ skip s /\ spaces p.
Proof.
  induction s as [|c s [p [E H]]]; [exists []; split; [reflexivity|constructor]|]. cbn [skip].
  destruct (isspace c) eqn:C.
  - exists (c :: p). split; [cbn; congruence|]. constructor; [now apply isspace_iff|assumption].
  - exists []. split; [reflexivity|constructor].
Qed.
Lemma skip_head s c r : skip s = c :: r -> isspace c = false.
Proof.
  induction s as [|x s IH]; cbn; [discriminate|]. destruct (isspace x) eqn:E; [exact IH|]. now intros [= -> _].
Qed.

Lemma collect_length s : forall dq sq, (length (snd (collect dq sq s)) <= length s)%nat.
Proof.
  induction s as [|c s IH]; intros dq sq; cbn [collect]; [cbn; lia|].
  destruct (_ || _); [cbn; lia|]. destruct (_ && _); [cbn [length]; specialize (IH (negb dq) sq); lia|].
  destruct (_ && _); [cbn [length]; specialize (IH dq (negb sq)); lia|].
  specialize (IH dq sq). destruct (collect dq sq s). cbn in *. lia.
Qed.
Lemma collect_shorter dq sq c s : (length (snd (collect dq sq (c :: s))) <= length s)%nat.
Proof.
  cbn [collect]. destruct (_ || _); [cbn; lia|]. destruct (_ && _); [apply collect_length|].
  destruct (_ && _); [apply collect_length|].
  pose proof (collect_length s dq sq). destruct (collect dq sq s). cbn in *. lia.
Qed.

Lemma next_arg_shorter s a r : next_arg s = Some (a, r) -> (length r < length s)%nat.
Proof.
  unfold next_arg. pose proof (skip_length s). destruct (skip s) as [|c t]; [discriminate|].
  destruct (c =? 0); [discriminate|]. intros E0. assert (E : collect false false (c :: t) = (a, r)) by congruence.
  pose proof (collect_shorter false false c t) as L.
  rewrite E in L. cbn in *. lia.
Qed.

Lemma args_of_fuel f : forall g s, (length s <= f)%nat -> (length s <= g)%nat -> args_of f s = args_of g s.
Proof.
  induction f as [|f IH]; intros [|g] s Hf Hg; cbn [args_of]; try reflexivity.
  - destruct s; [reflexivity|cbn in Hf; lia].
  - destruct s; [reflexivity|cbn in Hg; lia].
  - destruct (next_arg s) as [[a r]|] eqn:E; [|reflexivity]. apply next_arg_shorter in E. f_equal. apply IH; lia.
Qed.
Lemma split_eq s : split s = match next_arg s with Some (a, r) => a :: split r | None => [] end.
Proof.
  unfold split. destruct s as [|c t]; [reflexivity|]. cbn [length args_of].
  destruct (next_arg (c :: t)) as [[a r]|] eqn:E; [|reflexivity].
  apply next_arg_shorter in E. cbn in E. f_equal. apply args_of_fuel; lia.
Qed.

(** ** Text without quotes *)
Lemma collect_plain a r : Forall (fun c => ~ space c) a -> plain a -> (forall c t, r = c :: t -> space c) ->
  collect false false (a ++ r) = (a, tl r).
Proof.
  intros Ha P Hr. induction a as [|c a IH].
  - destruct r as [|c t]; [reflexivity|]. cbn [app collect tl]. rewrite (space_true c) by (eapply Hr; reflexivity).
    now rewrite orb_true_r.
  - inversion Ha; subst. inversion P as [|? ? [P1 [P2 P3]] P4]; subst. cbn [app collect].
    rewrite (isspace_false c) by assumption. apply Z.eqb_neq in P1, P2, P3. rewrite P1, P2, P3. cbn.
    now rewrite IH.
Qed.

Lemma plain_app a b : plain (a ++ b) -> plain a /\ plain b.
Proof. apply Forall_app. Qed.

Lemma next_arg_field s a r : spaces s -> a <> [] -> Forall (fun c => ~ space c) a -> plain a ->
  (forall c t, r = c :: t -> space c) -> next_arg (s ++ a ++ r) = Some (a, tl r).
Proof.
  intros Hs Ha Hn Hp Hr. unfold next_arg. rewrite skip_spaces by assumption.
  destruct a as [|c a]; [congruence|]. inversion Hn; subst. inversion Hp as [|? ? [P1 [P2 P3]] P4]; subst.
  cbn [app skip]. rewrite (isspace_false c) by assumption. apply Z.eqb_neq in P3. rewrite P3.
  change (c :: a ++ r) with ((c :: a) ++ r). now rewrite collect_plain.
Qed.

Lemma next_arg_spaces s : spaces s -> next_arg s = None.
Proof.
  intros H. unfold next_arg. rewrite <- (app_nil_r s), skip_spaces by assumption. reflexivity.
Qed.

Lemma split_fields s l : fields s l -> plain s -> split s = l.
Proof.
  induction 1 as [s Hs|s a s' Hs Ha Hn Hs'|s a s' r b l Hs Ha Hn Hs' Hne Hr IH]; intros P.
  - rewrite split_eq, next_arg_spaces by assumption. reflexivity.
  - apply plain_app in P as [_ P]. apply plain_app in P as [P _].
    rewrite split_eq, next_arg_field; auto.
    + f_equal. rewrite split_eq, next_arg_spaces; [reflexivity|]. destruct Hs'; [constructor|assumption].
    + intros c t ->. now inversion Hs'.
  - apply plain_app in P as [_ P]. apply plain_app in P as [P1 P]. apply plain_app in P as [_ P2].
    rewrite split_eq, next_arg_field; auto.
    + destruct s' as [|c s']; [congruence|]. cbn [app tl]. f_equal. inversion Hs'; subst.
      rewrite <- (IH P2), (split_eq (s' ++ r)), (split_eq r). unfold next_arg. now rewrite skip_spaces.
    + intros c t E. destruct s' as [|c' s']; [congruence|]. injection E as -> _. now inversion Hs'.
Qed.

Lemma collect_inv s a r : plain s -> collect false false s = (a, r) ->
  Forall (fun c => ~ space c) a /\
  (s = a /\ r = [] \/ exists c, s = a ++ c :: r /\ space c).
Proof.
  revert a r. induction s as [|c s IH]; intros a r P.
  - cbn. intros [= <- <-]. split; [constructor|left; auto].
  - inversion P as [|? ? [P1 [P2 P3]] P4]; subst. cbn [collect]. apply Z.eqb_neq in P1, P2, P3. rewrite P1, P2, P3.
    cbn. rewrite !andb_true_r. destruct (isspace c) eqn:E.
    + intros [= <- <-]. split; [constructor|]. right. exists c. split; [reflexivity|now apply isspace_iff].
    + destruct (collect false false s) as [a' r'] eqn:Q. intros [= <- <-]. destruct (IH a' r' P4 eq_refl) as [F D].
      split; [constructor; [intros H; apply isspace_iff in H; congruence|assumption]|].
      destruct D as [[-> ->]|[x [-> X]]]; [left; auto|right; exists x; auto].
Qed.

Lemma next_arg_inv s a r : plain s -> next_arg s = Some (a, r) ->
  exists p, spaces p /\ a <> [] /\ Forall (fun c => ~ space c) a /\
  (s = p ++ a /\ r = [] \/ exists c, s = p ++ a ++ c :: r /\ space c).
Proof.
  intros P H0. unfold next_arg in H0. destruct (skip_split s) as [p [E Hp]]. exists p. split; [assumption|].
  destruct (skip s) as [|c t] eqn:Q; [discriminate|]. destruct (c =? 0) eqn:C0; [discriminate|].
  assert (H : collect false false (c :: t) = (a, r)) by congruence. rewrite E in P. apply plain_app in P as [_ P].
  destruct (collect_inv _ _ _ P H) as [F D]. split; [|split; [assumption|]].
  - apply skip_head in Q. destruct D as [[<- _]|[x [D X]]]; [discriminate|].
    intros ->. cbn in D. injection D as -> ->. apply isspace_iff in X. congruence.
  - destruct D as [[D ->]|[x [D X]]]; [left|right; exists x]; split; auto; congruence.
Qed.

Lemma next_arg_none s : plain s -> next_arg s = None -> spaces s.
Proof.
  intros P. unfold next_arg. destruct (skip_split s) as [p [E Hp]]. destruct (skip s) as [|c t] eqn:Q.
  - rewrite E, app_nil_r. auto.
  - rewrite E in P. apply plain_app in P as [_ P]. inversion P as [|? ? [_ [_ P3]] _]; subst.
    apply Z.eqb_neq in P3. rewrite P3. discriminate.
Qed.

Lemma split_is_fields n : forall s, (length s <= n)%nat -> plain s -> fields s (split s).
Proof.
  induction n as [|n IH]; intros s L P.
  - destruct s; [constructor; constructor|cbn in L; lia].
  - rewrite split_eq. destruct (next_arg s) as [[a r]|] eqn:E; [|constructor; now apply next_arg_none].
    pose proof (next_arg_shorter _ _ _ E) as L'. destruct (next_arg_inv _ _ _ P E) as [p [Hp [Ha [Hn D]]]].
    destruct D as [[-> ->]|[c [-> C]]].
    + rewrite <- (app_nil_r a) at 1. constructor; auto. constructor.
    + assert (Pr : plain r).
      { apply plain_app in P as [_ P]. apply plain_app in P as [_ P]. now inversion P. }
      specialize (IH r ltac:(lia) Pr). destruct (split r) as [|b l].
      * constructor; auto. constructor; [assumption|]. inversion IH; assumption.
      * change (c :: r) with ([c] ++ r). apply (F_cons p a [c] r b l); auto; [constructor; [exact C|constructor]|discriminate].
Qed.

(** ** Quoted arguments *)
Lemma collect_quote_chr c r : c <> 0 -> collect false false (quote_chr c ++ r) =
  let '(a, r') := collect false false r in (c :: a, r').
Proof.
  intros H0. unfold quote_chr. destruct (Z.eqb_spec c 39) as [->|N].
  - cbn. now destruct (collect false false r).
  - apply Z.eqb_neq in N, H0. cbn [app collect]. cbn [isspace Z.eqb Pos.eqb Z.leb Z.compare Pos.compare Pos.compare_cont orb andb negb].
    rewrite H0, N. cbn. rewrite !andb_false_r. cbn. now destruct (collect false false r).
Qed.

Lemma collect_quote a c r : Forall (fun c => c <> 0) a -> space c ->
  collect false false (flat_map quote_chr a ++ c :: r) = (a, r).
Proof.
  intros Ha Hc. induction Ha as [|x a H _ IH]; cbn [flat_map].
  - cbn [app collect]. rewrite (space_true c Hc). now rewrite orb_true_r.
  - rewrite <- app_assoc, collect_quote_chr by assumption. now rewrite IH.
Qed.

Lemma quote_head a : exists c t, quote a = c :: t /\ isspace c = false /\ (c =? 0) = false.
Proof.
  destruct a as [|x a]; cbn [quote]; [exists 39, [39]; auto|]. cbn [flat_map]. unfold quote_chr at 1.
  destruct (x =? 39); cbn [app]; eauto 6.
Qed.

Lemma next_arg_quote a c r : Forall (fun c => c <> 0) a -> space c ->
  next_arg (quote a ++ c :: r) = Some (a, r).
Proof.
  intros Ha Hc. unfold next_arg. destruct (quote_head a) as [x [t [E [S0 N0]]]]. rewrite E. cbn [app skip].
  rewrite S0, N0. change (x :: t ++ c :: r) with ((x :: t) ++ c :: r). rewrite <- E.
  destruct a as [|y a].
  - cbn. rewrite (space_true c Hc). now rewrite orb_true_r.
  - cbn [quote]. now rewrite collect_quote.
Qed.

Lemma split_spaces s r : spaces s -> split (s ++ r) = split r.
Proof. intros H. rewrite (split_eq (s ++ r)), (split_eq r). unfold next_arg. now rewrite skip_spaces. Qed.

Lemma split_quoted (l : list (text * text)) :
  Forall (fun p => Forall (fun c => c <> 0) (fst p) /\ snd p <> [] /\ spaces (snd p)) l ->
  split (flat_map (fun p => quote (fst p) ++ snd p) l) = map fst l.
Proof.
  induction 1 as [|[a s] l [H1 [H2 H3]] _ IH]; [reflexivity|]. cbn [flat_map fst snd map] in *.
  destruct s as [|c s]; [congruence|]. inversion H3; subst. rewrite <- app_assoc. cbn [app].
  rewrite split_eq, next_arg_quote by assumption. f_equal. now rewrite split_spaces.
Qed.

(** ** Response files *)
Lemma add_single_other fs n a : (forall f c, a = 64 :: f -> fs f <> Some c) -> add_single fs n a = [a].
Proof.
  intros H.
  destruct a as [|c r]; [destruct n; reflexivity|].
  destruct (Z.eqb_spec c 64) as [->|N].
  - destruct n; cbn; [reflexivity|]. destruct (fs r) as [s|] eqn:E; [|reflexivity]. now destruct (H r s eq_refl).
  - apply Z.eqb_neq in N. destruct n; cbn [add_single]; now rewrite N.
Qed.

Section expand.
Context (fs : text -> option text).
Let words := fun c ws => plain c /\ fields c ws.

Lemma expand_ok d : forall n, (d <= n)%nat ->
  (forall a l, expands words fs a l d -> add_single fs n a = l) /\
  (forall ws ls, expands_all words fs ws ls d -> flat_map (add_single fs n) ws = ls).
Proof.
  induction d as [|d IH]; intros n Hn.
  - assert (A : forall a l, expands words fs a l 0 -> add_single fs n a = l).
    { intros a l H. inversion H; subst. now apply add_single_other. }
    split; [exact A|]. intros ws. induction ws as [|w ws IW]; intros ls H; inversion H; subst; cbn; [reflexivity|].
    f_equal; auto.
  - destruct n as [|n]; [lia|].
    assert (A : forall a l, expands words fs a l (S d) -> add_single fs (S n) a = l).
    { intros a l H. inversion H as [? ? K|f c ws ls' d' E [P F] K]; subst; [now apply add_single_other|].
      cbn [add_single]. cbn [Z.eqb Pos.eqb]. rewrite E, (split_fields c ws F P). apply (IH n ltac:(lia)). exact K. }
    split; [exact A|]. intros ws. induction ws as [|w ws IW]; intros ls H; inversion H; subst; cbn [flat_map]; [reflexivity|].
    f_equal; auto.
Qed.
End expand.

Lemma c_string_plain s : plain s -> c_string s = s.
Proof.
  induction 1 as [|c s [_ [_ N]] H IH]; [reflexivity|]. cbn [c_string]. rewrite (proj2 (Z.eqb_neq c 0) N), IH. reflexivity.
Qed.
