From Coq Require Import ZArith List Bool Ascii String Arith Lia.
From Verif Require Import DiagModel DiagSpec.
Import ListNotations.
Local Open Scope list_scope.
Local Open Scope nat_scope.
Local Notation length := List.length.

Lemma words_app w s t : no_space s -> words_from w (s ++ t) = words_from (w ++ s) t.
Proof.
  revert w. induction s as [|c r IH]; intros w H; cbn [app]; [now rewrite app_nil_r|]. inversion H as [|? ? A B]; subst.
  cbn [words_from]. rewrite A, IH, <- app_assoc; auto.
Qed.
Lemma words_spaces s t : Forall (fun c => is_space c = true) s -> words_from [] (s ++ t) = words_from [] t.
Proof. induction 1 as [|c r A B IH]; cbn; [auto|]. now rewrite A. Qed.
Lemma words_any w s t t' : (forall v, words_from v t = words_from v t') -> words_from w (s ++ t) = words_from w (s ++ t').
Proof. intros H. revert w. induction s as [|c r IH]; intros w; cbn; auto. destruct (is_space c); now rewrite IH. Qed.

Lemma take_word_spec s : forall w r, take_word s = (w, r) -> s = w ++ r /\ no_space w /\ (r = [] \/ exists c r', r = c :: r' /\ is_space c = true).
Proof.
  induction s as [|c s IH]; cbn; intros w r E; [injection E as <- <-; repeat split; [constructor|auto]|].
  destruct (is_space c) eqn:S0; [injection E as <- <-; repeat split; [constructor|right; eauto]|].
  destruct (take_word s) as (w', r') eqn:T. injection E as <- <-. destruct (IH _ _ eq_refl) as (-> & A & B). repeat split; auto. constructor; auto.
Qed.
Lemma skip_spec s : exists sp, s = sp ++ skip_spaces s /\ Forall (fun c => is_space c = true) sp.
Proof.
  induction s as [|c r IH]; cbn; [exists []; split; auto|]. destruct (is_space c) eqn:S0; [|exists []; split; auto].
  destruct IH as (sp & E & F). exists (c :: sp). split; [cbn; now rewrite <- E|auto].
Qed.
Lemma skip_head s c r : skip_spaces s = c :: r -> is_space c = false.
Proof. induction s as [|d s IH]; cbn; [discriminate|]. destruct (is_space d) eqn:S0; auto. intros E. injection E as <- <-. auto. Qed.
Lemma skip_length s : length (skip_spaces s) <= length s.
Proof. induction s as [|c r IH]; cbn; auto. destruct (is_space c); cbn; lia. Qed.
Lemma take_blanks_spec s : forall b r, take_blanks s = (b, r) -> s = b ++ r /\ Forall (fun c => c = space) b.
Proof.
  induction s as [|c s IH]; cbn; intros b r E; [injection E as <- <-; auto|]. destruct (Ascii.eqb_spec c space) as [->|]; [|injection E as <- <-; auto].
  destruct (take_blanks s) as (b', r') eqn:T. injection E as <- <-. destruct (IH _ _ eq_refl) as (-> & A). auto.
Qed.
Lemma take_escape_spec s : forall e r, take_escape s = (e, r) -> s = e ++ r /\ (r = [] \/ exists r', r = letter_m :: r').
Proof.
  induction s as [|c s IH]; cbn; intros e r E; [injection E as <- <-; auto|]. destruct (Ascii.eqb_spec c letter_m) as [->|]; [injection E as <- <-; eauto|].
  destruct (take_escape s) as (e', r') eqn:T. injection E as <- <-. destruct (IH _ _ eq_refl) as (-> & A). auto.
Qed.
Lemma blank_space b : Forall (fun c => c = space) b -> Forall (fun c => is_space c = true) b.
Proof. apply Forall_impl. intros c ->. reflexivity. Qed.
Lemma spaces_blank n : Forall (fun c => c = space) (spaces n).
Proof. apply Forall_forall. intros c H. now apply repeat_spec in H. Qed.
Lemma spaces_length n : length (spaces n) = n.
Proof. apply repeat_length. Qed.

Definition ready (indent column : nat) (s : text) : Prop := column <= indent \/ s = [] \/ exists c r, s = c :: r /\ is_space c = true.
Definition pending (indent column : nat) (w s : text) : Prop := w = [] \/ column <= indent /\ (s = [] \/ exists r, s = letter_m :: r).

Lemma wrap_words width indent : forall fuel column s w, length s < fuel -> ready indent column s -> pending indent column w s ->
  words_from w (wrap fuel width indent column s) = words_from w s.
Proof.
  induction fuel as [|fuel IH]; intros column s w L R P; [lia|]. cbn [wrap].
  set (body := match skip_spaces s with [] => [newline] | _ => _ end).
  assert (B : words_from w body = words_from w s).
  { unfold body. clear body. destruct (skip_spec s) as (sp & E & F). pose proof (skip_length s) as SL. pose proof (skip_head s) as SH.
    destruct (skip_spaces s) as [|c t] eqn:K.
    - rewrite app_nil_r in E. subst s. cbn [words_from]. change (is_space newline) with true. cbn iota. destruct F as [|c r A F]; cbn [words_from]; [now rewrite app_nil_r|]. rewrite A.
      replace (words_from [] r) with (@nil text); [now rewrite app_nil_r|]. symmetry. rewrite <- (app_nil_r r), words_spaces; auto.
    - specialize (SH _ _ eq_refl). destruct (take_word (c :: t)) as (u, r) eqn:T. pose proof T as T0. cbn [take_word] in T0. rewrite SH in T0. destruct (take_word t) as (u', r') eqn:T1. injection T0 as <- <-.
      destruct (take_word_spec _ _ _ T) as (EQ & NS & RE). rewrite EQ in E.
      assert (LR : length r' < fuel) by (rewrite E, !app_length in L; cbn [length] in L; lia).
      assert (RR : forall col, ready indent col r') by (intros col; right; auto).
      assert (Q : forall col v, words_from v (space :: wrap fuel width indent col r') = words_from v r').
      { intros col v. cbn [words_from]. change (is_space space) with true. cbn iota. rewrite (IH col r' []); auto; [|left; auto].
        destruct RE as [->|(c' & r'' & -> & SC)]; [cbn; now rewrite app_nil_r|]. cbn [words_from]. rewrite SC. reflexivity. }
      destruct P as [->|(LE & ST)].
      + rewrite E. rewrite words_spaces by auto. rewrite words_app by auto.
        destruct (_ && _).
        * cbn [words_from]. change (is_space newline) with true. cbn iota. cbn [app]. rewrite words_spaces by (apply blank_space, spaces_blank).
          change (c :: u' ++ ?x) with ((c :: u') ++ x). rewrite words_app by auto. apply Q.
        * change (c :: u' ++ ?x) with ((c :: u') ++ x). rewrite words_app by auto. apply Q.
      + assert (SP : sp = []).
        { destruct ST as [->|(r0 & ->)]; [destruct sp; [auto|discriminate]|]. destruct sp as [|d sp]; auto. injection E as <- _. inversion F. discriminate. }
        subst sp. cbn [app] in E. destruct (Nat.ltb_spec indent column); [lia|]. cbn [andb].
        rewrite E. change (c :: u' ++ space :: ?x) with ((c :: u') ++ space :: x). change (c :: u' ++ r') with ((c :: u') ++ r'). rewrite !words_app by auto. apply Q. }
  destruct s as [|c r]; [exact B|].
  destruct (Ascii.eqb_spec c escape) as [->|NE].
  - destruct (take_escape r) as (e, r') eqn:T. destruct (take_escape_spec _ _ _ T) as (-> & M).
    assert (LE : column <= indent). { destruct R as [R|[R|(c' & r'' & R & S0)]]; [auto|discriminate|injection R as <- _; discriminate]. }
    change (escape :: e ++ r') with ((escape :: e) ++ r'). apply words_any. intros v. apply IH.
    + cbn [length] in L. rewrite app_length in L. lia.
    + left. auto.
    + right. auto.
  - destruct (Ascii.eqb_spec c newline) as [->|NN]; [|exact B].
    destruct (take_blanks r) as (b, r') eqn:T. destruct (take_blanks_spec _ _ _ T) as (-> & F).
    cbn [words_from]. change (is_space newline) with true. cbn iota. f_equal. rewrite !words_spaces by (auto using blank_space, spaces_blank).
    apply IH; [cbn [length] in L; rewrite app_length in L; lia|left; auto|left; auto].
Qed.

Lemma print_words s indent columns : words (print_with_word_breaks s indent columns) = words s.
Proof. apply wrap_words; [lia|left; lia|left; auto]. Qed.

(** ** The width of lines *)
Lemma lines_app l s t : ~ In newline s -> lines_from l (s ++ t) = lines_from (l ++ s) t.
Proof.
  revert l. induction s as [|c r IH]; intros l H; cbn [app]; [now rewrite app_nil_r|]. cbn [lines_from].
  destruct (Ascii.eqb_spec c newline) as [->|]; [exfalso; apply H; left; auto|]. rewrite IH, <- app_assoc; auto. intros X. apply H. right. auto.
Qed.
Lemma skip_rev_word x w : no_space w -> w <> [] -> skip_spaces (rev w ++ x) = rev w ++ x.
Proof.
  intros N E. destruct (rev w) as [|c r] eqn:R; [apply (f_equal (@rev ascii)) in R; rewrite rev_involutive in R; cbn in R; congruence|].
  assert (S0 : is_space c = false). { unfold no_space in N. rewrite Forall_forall in N. apply N. apply in_rev. rewrite R. left. auto. }
  cbn. now rewrite S0.
Qed.
Lemma trim_word p w : no_space w -> w <> [] -> trim (p ++ w ++ [space]) = p ++ w.
Proof.
  intros N E. unfold trim. rewrite !rev_app_distr. cbn [rev app skip_spaces]. change (is_space space) with true. cbn iota.
  rewrite skip_rev_word by auto. rewrite <- rev_app_distr. apply rev_involutive.
Qed.
Definition fits (width indent : nat) (l : text) : Prop :=
  length (trim l) <= width \/ exists p w, trim l = p ++ w /\ no_space w /\ length p <= indent.

Lemma no_space_newline w : no_space w -> ~ In newline w.
Proof. unfold no_space. rewrite Forall_forall. intros H X. specialize (H _ X). discriminate. Qed.
Lemma spaces_newline n : ~ In newline (spaces n).
Proof. intros H. apply repeat_spec in H. discriminate. Qed.

Lemma wrap_fits width indent : forall fuel s p, length s < fuel -> ~ In newline s -> ~ In escape s -> fits width indent p ->
  Forall (fits width indent) (lines_from p (wrap fuel width indent (length p) s)).
Proof.
  induction fuel as [|fuel IH]; intros s p L NN NE FP; [lia|]. cbn [wrap].
  set (body := match skip_spaces s with [] => [newline] | _ => _ end).
  assert (B : Forall (fits width indent) (lines_from p body)).
  { unfold body. clear body. destruct (skip_spec s) as (sp & E & F). pose proof (skip_head s) as SH. destruct (skip_spaces s) as [|c t] eqn:K.
    - cbn. constructor; auto. constructor; [left; cbn; lia|constructor].
    - specialize (SH _ _ eq_refl). destruct (take_word (c :: t)) as (u, r) eqn:T. destruct (take_word_spec _ _ _ T) as (EQ & NS & RE).
      assert (U : u <> []) by (cbn [take_word] in T; rewrite SH in T; destruct (take_word t); injection T as <- <-; discriminate).
      rewrite EQ in E.
      assert (LR : length r < fuel) by (rewrite E, !app_length in L; destruct u; [congruence|cbn [length] in L; lia]).
      assert (NR : ~ In newline r) by (intros X; apply NN; rewrite E; apply in_or_app; right; apply in_or_app; auto).
      assert (ER : ~ In escape r) by (intros X; apply NE; rewrite E; apply in_or_app; right; apply in_or_app; auto).
      assert (G : forall q, (length q <= indent \/ length q + length u <= width) ->
        Forall (fits width indent) (lines_from q (u ++ space :: wrap fuel width indent (length q + length u + 1) r))).
      { intros q Q. rewrite lines_app by (apply no_space_newline; auto). cbn [lines_from]. change (Ascii.eqb space newline) with false. cbn iota.
        replace (length q + length u + 1) with (length ((q ++ u) ++ [space])) by (rewrite !app_length; cbn; lia).
        apply IH; auto. unfold fits. rewrite <- app_assoc, trim_word by auto. destruct Q as [Q|Q]; [right; eauto|left; rewrite app_length; lia]. }
      destruct (Nat.ltb_spec indent (length p)); cbn [andb]; [|apply G; auto].
      destruct (Nat.ltb_spec width (length p + length u)); [|apply G; auto].
      cbn [lines_from]. change (Ascii.eqb newline newline) with true. cbn iota. constructor; auto.
      rewrite lines_app by apply spaces_newline. cbn [app]. pose proof (G (spaces indent)) as G1. rewrite spaces_length in G1. apply G1. auto. }
  destruct s as [|c r]; [exact B|]. destruct (Ascii.eqb_spec c escape) as [->|_]; [exfalso; apply NE; left; auto|].
  destruct (Ascii.eqb_spec c newline) as [->|_]; [exfalso; apply NN; left; auto|exact B].
Qed.

(** ** Line breaks of the message *)
Lemma take_word_app w c s : no_space w -> is_space c = true -> take_word (w ++ c :: s) = (w, c :: s).
Proof. intros N C. induction N as [|d w A N IH]; cbn; [now rewrite C|]. rewrite A, IH. auto. Qed.
Lemma skip_app sp t : Forall (fun c => is_space c = true) sp -> skip_spaces (sp ++ t) = skip_spaces t.
Proof. induction 1 as [|c r A B IH]; cbn; auto. rewrite A. auto. Qed.

Lemma wrap_fuel width indent : forall f1 f2 column s, length s < f1 -> length s < f2 -> wrap f1 width indent column s = wrap f2 width indent column s.
Proof.
  induction f1 as [|f1 IH]; intros f2 column s L1 L2; [lia|]. destruct f2 as [|f2]; [lia|]. cbn [wrap].
  set (b1 := match skip_spaces s with [] => [newline] | _ => _ end). set (b2 := match skip_spaces s with [] => [newline] | _ => _ end).
  assert (B : b1 = b2).
  { unfold b1, b2. pose proof (skip_length s) as SL. pose proof (skip_head s) as SH. destruct (skip_spaces s) as [|c t] eqn:K; auto. specialize (SH _ _ eq_refl).
    destruct (take_word (c :: t)) as (u, r) eqn:T. destruct (take_word_spec _ _ _ T) as (EQ & _ & _).
    assert (U : u <> []) by (cbn [take_word] in T; rewrite SH in T; destruct (take_word t); injection T as <- <-; discriminate).
    assert (length r < length (c :: t)) by (rewrite EQ, app_length; destruct u; [congruence|cbn; lia]).
    destruct (_ && _); [|rewrite (IH f2); auto; lia]. rewrite (IH f2); auto; lia. }
  destruct s as [|c r]; auto. cbn [length] in L1, L2. destruct (Ascii.eqb c escape).
  - destruct (take_escape r) as (e, r') eqn:T. destruct (take_escape_spec _ _ _ T) as (-> & _). rewrite app_length in *. rewrite (IH f2); auto; lia.
  - destruct (Ascii.eqb c newline); auto. destruct (take_blanks r) as (b, r') eqn:T. destruct (take_blanks_spec _ _ _ T) as (-> & _). rewrite app_length in *. rewrite (IH f2); auto; lia.
Qed.

Definition ends_word (s : text) : Prop := s = [] \/ exists a c, s = a ++ [c] /\ is_space c = false.
Lemma wrap_break width indent s2 : forall fuel column s1, length (s1 ++ newline :: s2) < fuel -> ~ In escape s1 -> ends_word s1 ->
  exists out1 out2, wrap fuel width indent column s1 = out1 ++ [newline] /\ wrap fuel width indent column (s1 ++ newline :: s2) = out1 ++ newline :: out2 /\ words out2 = words s2.
Proof.
  induction fuel as [|fuel IH]; intros column s1 L NE EW; [lia|].
  assert (BR : exists out2, wrap (S fuel) width indent column (newline :: s2) = newline :: out2 /\ words out2 = words s2).
  { cbn [wrap]. change (Ascii.eqb newline escape) with false. change (Ascii.eqb newline newline) with true. cbn iota.
    destruct (take_blanks s2) as (b, r') eqn:T. destruct (take_blanks_spec _ _ _ T) as (-> & F). eexists. split; [reflexivity|].
    unfold words. rewrite !words_spaces by (auto using blank_space, spaces_blank). apply wrap_words; [rewrite !app_length in L; cbn [length] in L; rewrite app_length in L; lia|left; auto|left; auto]. }
  assert (BR' : forall f col, length (newline :: s2) < f -> exists out2, wrap f width indent col (newline :: s2) = newline :: out2 /\ words out2 = words s2).
  { intros f col LF. destruct f; [lia|]. cbn [wrap]. change (Ascii.eqb newline escape) with false. change (Ascii.eqb newline newline) with true. cbn iota.
    destruct (take_blanks s2) as (b, r') eqn:T. destruct (take_blanks_spec _ _ _ T) as (-> & F). eexists. split; [reflexivity|].
    unfold words. rewrite !words_spaces by (auto using blank_space, spaces_blank). apply wrap_words; [cbn [length] in LF; rewrite app_length in LF; lia|left; auto|left; auto]. }
  clear BR.
  destruct s1 as [|c0 s1'] eqn:ES.
  { exists []. destruct (BR' (S fuel) column) as (out2 & E & W); [exact L|]. exists out2. auto. }
  rewrite <- ES in *. clear ES.
  destruct EW as [EW|(a & z & EZ & SZ)].
  { subst s1. destruct (BR' (S fuel) column) as (out2 & E & W); [exact L|]. exists [], out2. auto. }
  destruct s1 as [|c1 r1] eqn:ES; [destruct a; discriminate|].
  assert (C1 : c1 <> escape) by (intros ->; apply NE; left; auto).
  destruct (Ascii.eqb_spec c1 newline) as [->|N1].
  - (* a newline *)
    cbn [app wrap]. change (Ascii.eqb newline escape) with false. change (Ascii.eqb newline newline) with true. cbn iota.
    destruct (take_blanks r1) as (b, r') eqn:T. destruct (take_blanks_spec _ _ _ T) as (-> & F).
    assert (NR : r' <> []).
    { intros ->. rewrite app_nil_r in *. destruct a as [|a0 a]; [injection EZ as <- _; discriminate|]. injection EZ as _ EZ. rewrite EZ in F. apply Forall_app in F as (_ & F). inversion F; subst. discriminate. }
    assert (T2 : take_blanks ((b ++ r') ++ newline :: s2) = (b, r' ++ newline :: s2)).
    { rewrite <- app_assoc. clear -F T NR. revert T. induction F as [|d b A F IH]; cbn [app]; intros T.
      - destruct r' as [|d r']; [congruence|]. cbn in *. destruct (Ascii.eqb d space); auto. destruct (take_blanks r'). discriminate.
      - subst d. cbn in *. destruct (take_blanks (b ++ r')) as (b', r'') eqn:T'. injection T as <- <-. rewrite IH; auto. }
    rewrite T2.
    assert (EW' : ends_word r').
    { right. destruct (exists_last NR) as (a' & z' & ->). exists a', z'. split; auto. change (newline :: b ++ a' ++ [z']) with ((newline :: b) ++ a' ++ [z']) in EZ. rewrite app_assoc in EZ. apply app_inj_tail in EZ as (_ & <-). auto. }
    destruct (IH indent r') as (o1 & o2 & E1 & E2 & W).
    { cbn [length app] in L. rewrite !app_length in *. cbn [length] in *. lia. }
    { intros X. apply NE. right. apply in_or_app. auto. }
    { auto. }
    exists (newline :: spaces indent ++ b ++ o1), o2. rewrite E1, E2. repeat split; auto; cbn; rewrite !app_assoc, <- ?app_assoc; auto.
  - (* words *)
    cbn [app wrap]. destruct (Ascii.eqb_spec c1 escape) as [|_]; [congruence|]. destruct (Ascii.eqb_spec c1 newline) as [|_]; [congruence|].
    change (c1 :: r1 ++ newline :: s2) with ((c1 :: r1) ++ newline :: s2). change (c1 :: r1 ++ newline :: s2) with ((c1 :: r1) ++ newline :: s2) in L. rewrite <- ES in *.
    destruct (skip_spec s1) as (sp & E & F). pose proof (skip_head s1) as SH. destruct (skip_spaces s1) as [|c t] eqn:K.
    { exfalso. rewrite app_nil_r in E. subst sp. rewrite EZ in F. apply Forall_app in F as (_ & F). inversion F; subst. congruence. }
    specialize (SH _ _ eq_refl). 
    replace (skip_spaces (s1 ++ newline :: s2)) with (c :: t ++ newline :: s2) by (rewrite E, <- app_assoc, skip_app by auto; cbn [app skip_spaces]; now rewrite SH).
    destruct (take_word (c :: t)) as (u, r) eqn:T. destruct (take_word_spec _ _ _ T) as (EQ & NS & RE).
    assert (U : u <> []) by (cbn [take_word] in T; rewrite SH in T; destruct (take_word t); injection T as <- <-; discriminate).
    change (c :: t ++ newline :: s2) with ((c :: t) ++ newline :: s2).
    assert (T2 : take_word ((c :: t) ++ newline :: s2) = (u, r ++ newline :: s2)).
    { rewrite EQ, <- app_assoc. destruct RE as [->|(d & r'' & -> & SD)]; cbn [app]; apply take_word_app; auto. }
    rewrite T2.
    assert (EW' : ends_word r).
    { destruct r as [|d r0]; [left; auto|]. right. destruct (exists_last (l := d :: r0)) as (a' & z' & E'); [discriminate|]. exists a', z'. split; auto.
      rewrite E, EQ, E' in EZ. rewrite !app_assoc in EZ. apply app_inj_tail in EZ as (_ & <-). auto. }
    assert (IHr : forall col, exists o1 o2, wrap fuel width indent col r = o1 ++ [newline] /\ wrap fuel width indent col (r ++ newline :: s2) = o1 ++ newline :: o2 /\ words o2 = words s2).
    { intros col. apply IH; auto.
      - rewrite E, EQ, !app_length in L. rewrite app_length. destruct u; [congruence|]. cbn [length] in *. lia.
      - intros X. apply NE. rewrite E, EQ. apply in_or_app. right. apply in_or_app. auto. }
    destruct (_ && _).
    + destruct (IHr (indent + length u + 1)) as (o1 & o2 & E1 & E2 & W). exists (newline :: spaces indent ++ u ++ space :: o1), o2. rewrite E1, E2. repeat split; auto; cbn; rewrite <- ?app_assoc; cbn; rewrite <- ?app_assoc; auto.
    + destruct (IHr (column + length u + 1)) as (o1 & o2 & E1 & E2 & W). exists (u ++ space :: o1), o2. rewrite E1, E2. repeat split; auto; rewrite <- ?app_assoc; auto.
Qed.

(** ** Messages and the outcome *)
Lemma text_eqb_spec a b : text_eqb a b = true <-> a = b.
Proof.
  revert b. induction a as [|x a IH]; intros [|y b]; cbn; try (split; congruence). rewrite andb_true_iff, IH, Ascii.eqb_eq. split; [intros (-> & ->); auto|intros E; injection E as -> ->; auto].
Qed.
Lemma given_app fl f g : given (fl ++ [g]) f = given fl f || flag_eqb f g.
Proof. unfold given. rewrite existsb_app. cbn. now rewrite orb_false_r. Qed.
Lemma limit_app fl g : limit_of (fl ++ [g]) = match g with ErrorLimit n => if (0 <=? n)%Z then Some n else limit_of fl | _ => limit_of fl end.
Proof.
  induction fl as [|h fl IH]; cbn [app limit_of]; [destruct g; auto; destruct (0 <=? n)%Z; auto|]. rewrite IH. destruct h; auto. destruct g; auto. destruct (0 <=? n0)%Z; auto.
Qed.
Lemma options_spec fl : o_quiet (options fl) = given fl Quiet /\ o_woff (options fl) = given fl Woff /\ o_werror (options fl) = given fl Werror /\
  o_perf (options fl) = perf_on fl /\ o_limit (options fl) = limit_of fl.
Proof.
  induction fl as [|g fl IH] using rev_ind; [repeat split; reflexivity|]. unfold options in *. rewrite fold_left_app. cbn [fold_left].
  destruct IH as (A & B & C & D & E). unfold perf_on in *. rewrite !given_app, limit_app.
  destruct g as [| | | |n]; cbn [set_flag o_quiet o_woff o_werror o_perf o_limit flag_eqb]; rewrite ?A, ?B, ?C, ?D, ?E, ?orb_false_r, ?orb_true_r; cbn; rewrite ?andb_false_r; auto.
  destruct (0 <=? n)%Z; cbn; rewrite ?A, ?B, ?C, ?D, ?E; auto.
Qed.
Lemma lookup_spec ig line file : NoDup (map fst ig) -> forall b, lookup ig line file = Some b <-> In (line, file, b) ig.
Proof.
  induction ig as [|((l, f), v) ig IH]; cbn; intros ND b; [split; [discriminate|tauto]|]. inversion ND as [|? ? A B]; subst.
  destruct (Z.eqb_spec l line) as [->|NE]; cbn [andb].
  - destruct (text_eqb f file) eqn:T.
    + apply text_eqb_spec in T as ->. split; [intros E; injection E as ->; auto|]. intros [E|E]; [congruence|]. exfalso. apply A. apply in_map_iff. exists (line, file, b). auto.
    + rewrite IH by auto. split; auto. intros [E|E]; auto. injection E as -> _. assert (text_eqb file file = true) by (apply text_eqb_spec; auto). congruence.
  - rewrite IH by auto. split; auto. intros [E|E]; auto. congruence.
Qed.
Lemma pragma_iff ig f : pragma_off ig f = true <-> exists b, In (p_last (f_pos f), p_name (f_pos f), b) ig /\ negb b || is_perf f = true.
Proof.
  unfold pragma_off. rewrite existsb_exists. split.
  - intros (((l, n), b) & I0 & E). apply andb_true_iff in E as (E & B). apply andb_true_iff in E as (E1 & E2). apply Z.eqb_eq in E1. apply text_eqb_spec in E2. subst. eauto.
  - intros (b & I0 & E). eexists. split; [exact I0|]. cbn. rewrite Z.eqb_refl, E. assert (T : text_eqb (p_name (f_pos f)) (p_name (f_pos f)) = true) by (apply text_eqb_spec; auto). rewrite T. auto.
Qed.
Lemma pragma_warning ig f : NoDup (map fst ig) -> f_sev f = SWarning ->
  match lookup ig (p_last (f_pos f)) (p_name (f_pos f)) with Some b => negb b | None => false end = pragma_off ig f.
Proof.
  intros ND W. destruct (lookup ig _ _) as [b|] eqn:L.
  - apply (lookup_spec ig _ _ ND) in L as I0. destruct (pragma_off ig f) eqn:P.
    + apply pragma_iff in P as (b' & I1 & E). apply (lookup_spec ig _ _ ND) in I1. rewrite L in I1. injection I1 as <-. unfold is_perf in E. rewrite W, orb_false_r in E. auto.
    + destruct b; auto. exfalso. assert (pragma_off ig f = true) by (apply pragma_iff; exists false; auto). congruence.
  - destruct (pragma_off ig f) eqn:P; auto. apply pragma_iff in P as (b' & I1 & E). apply (lookup_spec ig _ _ ND) in I1. congruence.
Qed.
Lemma pragma_perf ig f : NoDup (map fst ig) -> f_sev f = SPerf ->
  match lookup ig (p_last (f_pos f)) (p_name (f_pos f)) with Some _ => true | None => false end = pragma_off ig f.
Proof.
  intros ND W. destruct (lookup ig _ _) as [b|] eqn:L.
  - apply (lookup_spec ig _ _ ND) in L as I0. symmetry. apply pragma_iff. exists b. split; auto. unfold is_perf. rewrite W. apply orb_true_r.
  - destruct (pragma_off ig f) eqn:P; auto. apply pragma_iff in P as (b' & I1 & E). apply (lookup_spec ig _ _ ND) in I1. congruence.
Qed.

Section Report.
Variable decimal : Z -> text.
Variables (fl : list flag) (ig : ignored).
Hypothesis ND : NoDup (map fst ig).
Notation all fs := (report_all decimal (options fl) ig fs).

Lemma heading_message f : heading decimal (label fl f) (f_pos f) (f_msg f) = message decimal fl f.
Proof. unfold heading, message. destruct (_ =? _)%Z; [reflexivity|]. now rewrite <- !app_assoc. Qed.
Lemma print_errors k p t s : n_errors (print decimal k p t s) = n_errors s.
Proof. unfold print. destruct (existsb _ _); auto. Qed.
Lemma print_printed k p t s : printed (print decimal k p t s) = if existsb (text_eqb (heading decimal k p t)) (printed s) then printed s else printed s ++ [heading decimal k p t].
Proof. unfold print. destruct (existsb _ _); auto. Qed.
(** One finding. *)
Lemma report_step before f s : n_errors s = Z.of_nat (length (filter (fatal fl ig) before)) ->
  let s' := report decimal (options fl) ig f s in
  n_errors s' = Z.of_nat (length (filter (fatal fl ig) (before ++ [f]))) /\
  printed s' = if shown fl ig before f && negb (existsb (text_eqb (message decimal fl f)) (printed s)) then printed s ++ [message decimal fl f] else printed s.
Proof.
  intros N s'. destruct (options_spec fl) as (Q & W & R & P & L). unfold s', report. clear s'. rewrite Q, W, R, P, L, filter_app, app_length. cbn [filter].
  rewrite <- heading_message. unfold fatal at 2, shown, label. destruct (f_sev f) eqn:SV.
  - cbn [length]. rewrite Nat2Z.inj_add, <- N. cbn [count n_errors]. replace (n_errors s + 1 - 1)%Z with (n_errors s) by lia.
    destruct (limit_of fl) as [n|].
    + rewrite Z.ltb_antisym. destruct (n <=? n_errors s)%Z; cbn [negb]; [rewrite andb_false_r; split; [cbn; lia|reflexivity]|].
      destruct (given fl Quiet); cbn [negb andb]; [split; [cbn; lia|reflexivity]|]. rewrite print_errors, print_printed. cbn [count n_errors printed]. split; [lia|]. destruct (existsb _ _); reflexivity.
    + destruct (given fl Quiet); cbn [negb andb]; [split; [cbn; lia|reflexivity]|]. rewrite print_errors, print_printed. cbn [count n_errors printed]. split; [lia|]. destruct (existsb _ _); reflexivity.
  - rewrite pragma_warning by auto. destruct (pragma_off ig f); cbn [negb andb]; [rewrite !andb_false_r; split; [cbn; lia|reflexivity]|]. rewrite !andb_true_r.
    destruct (given fl Werror), (given fl Woff), (given fl Quiet); cbn [negb andb orb]; rewrite ?print_errors, ?print_printed; cbn [count n_errors printed length]; (split; [lia|]); try reflexivity; destruct (existsb _ _); reflexivity.
  - rewrite pragma_perf by auto. unfold of_library. destruct (perf_on fl), (ends_with _ (p_name (f_pos f))), (given fl Quiet), (pragma_off ig f), (given fl Werror); cbn [negb andb orb];
      rewrite ?print_errors, ?print_printed; cbn [count n_errors printed length]; (split; [lia|]); try reflexivity; destruct (existsb _ _); reflexivity.
Qed.
Lemma report_snoc fs f : all (fs ++ [f]) = report decimal (options fl) ig f (all fs).
Proof. unfold report_all. rewrite fold_left_app. reflexivity. Qed.
Lemma errors_count fs : n_errors (all fs) = Z.of_nat (length (filter (fatal fl ig) fs)).
Proof. induction fs as [|f fs IH] using rev_ind; [reflexivity|]. rewrite report_snoc. apply (report_step fs f _ IH). Qed.
Lemma printed_snoc fs f : printed (all (fs ++ [f])) =
  if shown fl ig fs f && negb (existsb (text_eqb (message decimal fl f)) (printed (all fs))) then printed (all fs) ++ [message decimal fl f] else printed (all fs).
Proof. rewrite report_snoc. apply (report_step fs f _ (errors_count fs)). Qed.
Lemma fails_iff fs : fails (all fs) = true <-> exists f, In f fs /\ fatal fl ig f = true.
Proof.
  unfold fails. rewrite errors_count, Z.ltb_lt. split.
  - intros H. destruct (filter (fatal fl ig) fs) as [|f r] eqn:E; [cbn in H; lia|]. exists f. apply filter_In. rewrite E. left. auto.
  - intros (f & I0 & E). assert (X : In f (filter (fatal fl ig) fs)) by (apply filter_In; auto). destruct (filter (fatal fl ig) fs); [destruct X|cbn [length]; lia].
Qed.
Lemma existsb_text t l : existsb (text_eqb t) l = true <-> In t l.
Proof. rewrite existsb_exists. split; [intros (x & I0 & E); apply text_eqb_spec in E as ->; auto|intros H; exists t; split; auto; now apply text_eqb_spec]. Qed.
Lemma printed_iff fs t : In t (printed (all fs)) <-> exists before f after, fs = before ++ f :: after /\ shown fl ig before f = true /\ t = message decimal fl f.
Proof.
  induction fs as [|g fs IH] using rev_ind.
  - cbn. split; [tauto|]. intros (b & f & a & E & _). destruct b; discriminate.
  - rewrite printed_snoc. split.
    + intros H. assert (C : In t (printed (all fs)) \/ shown fl ig fs g = true /\ t = message decimal fl g).
      { destruct (shown fl ig fs g); cbn [andb] in H; auto. destruct (existsb _ _); cbn [negb] in H; auto. apply in_app_or in H as [H|[H|[]]]; auto. }
      destruct C as [C|(C & ->)]; [|exists fs, g, []; auto]. apply IH in C as (b & f & a & -> & S0 & ->). exists b, f, (a ++ [g]). split; auto. now rewrite <- app_assoc.
    + intros (b & f & a & E & S0 & ->). destruct a as [|a1 a] using rev_ind.
      * apply app_inj_tail in E as (-> & ->). rewrite S0. cbn [andb]. destruct (existsb _ _) eqn:X; cbn [negb]; [now apply existsb_text|]. apply in_or_app. right. left. auto.
      * clear IHa. rewrite app_comm_cons, app_assoc in E. apply app_inj_tail in E as (-> & ->).
        assert (X : In (message decimal fl f) (printed (all (b ++ f :: a)))) by (apply IH; exists b, f, a; auto).
        destruct (_ && _); auto. apply in_or_app. auto.
Qed.
Lemma printed_nodup fs : NoDup (printed (all fs)).
Proof.
  induction fs as [|g fs IH] using rev_ind; [constructor|]. rewrite printed_snoc. destruct (shown fl ig fs g); cbn [andb]; auto. destruct (existsb _ _) eqn:X; cbn [negb]; auto.
  apply NoDup_rev in IH. rewrite <- (rev_involutive (_ ++ [_])). apply NoDup_rev. rewrite rev_app_distr. cbn. constructor; auto. rewrite <- in_rev. intros I0. apply existsb_text in I0. congruence.
Qed.
Lemma printed_prefix fs gs : exists rest, printed (all (fs ++ gs)) = printed (all fs) ++ rest.
Proof.
  induction gs as [|g gs (r & IH)] using rev_ind; [exists []; now rewrite !app_nil_r|]. rewrite app_assoc, printed_snoc, IH. destruct (_ && _); [|eauto]. rewrite <- app_assoc. eauto.
Qed.
Lemma first_fatal fs : (exists f, In f fs /\ fatal fl ig f = true) -> exists b f a, fs = b ++ f :: a /\ filter (fatal fl ig) b = [] /\ fatal fl ig f = true.
Proof.
  induction fs as [|g fs IH]; intros (f & I0 & E); [destruct I0|]. destruct (fatal fl ig g) eqn:G; [exists [], g, fs; auto|].
  destruct IH as (b & h & a & -> & B & H); [destruct I0 as [->|I0]; [congruence|eauto]|]. exists (g :: b), h, a. cbn. rewrite G. auto.
Qed.
Lemma not_silent fs : given fl Quiet = false -> limit_of fl <> Some 0%Z -> given fl Woff && given fl Werror = false -> fails (all fs) = true -> printed (all fs) <> [].
Proof.
  intros Q LI WW F. apply fails_iff, first_fatal in F as (b & f & a & -> & B & E). intros N.
  assert (X : In (message decimal fl f) (printed (all (b ++ f :: a)))).
  { apply printed_iff. exists b, f, a. repeat split; auto. unfold shown. rewrite Q, B. cbn [negb andb length]. unfold fatal in E. destruct (f_sev f).
    - destruct (limit_of fl) as [n|] eqn:L; auto. apply Z.ltb_lt. cbn. assert (0 <= n)%Z; [|assert (n <> 0)%Z by congruence; lia].
      clear -L. revert n L. induction fl as [|g r IH]; cbn; [discriminate|]. intros n L. destruct g; auto. destruct (limit_of r) as [m0|]; [injection L as <-; auto|]. destruct (Z.leb_spec 0 n0); [injection L as <-; auto|discriminate].
    - apply andb_true_iff in E as (E1 & E2). rewrite E1, andb_true_r in WW. rewrite WW, E2. auto.
    - apply andb_true_iff in E as (E & _). apply andb_true_iff in E as (E & E4). apply andb_true_iff in E as (E & E3). apply andb_true_iff in E as (_ & E2). rewrite E2, E3, E4. auto. }
  rewrite N in X. destruct X.
Qed.
End Report.
