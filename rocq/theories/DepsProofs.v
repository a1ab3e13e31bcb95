From Coq Require Import ZArith List Bool Ascii String Lia.
From Verif Require Import DepsModel DepsSpec.
Import ListNotations.
Local Open Scope list_scope.

Lemma text_eqb_iff a b : text_eqb a b = true <-> a = b.
Proof.
  revert b. induction a as [|x a IH]; intros [|y b]; cbn; try (split; congruence). rewrite andb_true_iff, IH, Ascii.eqb_eq. split; [intros (-> & ->); auto|intros E; injection E as -> ->; auto].
Qed.

(** ** Names survive the way through the line markers *)
Definition carried (c : ascii) : bool := (printable c && negb (Ascii.eqb c quote)) || Ascii.eqb c tab || Ascii.eqb c newline.
Lemma escape_no_quote c : carried c = true -> ~ In quote (escape_char c).
Proof.
  unfold carried, escape_char. intros H. destruct (Ascii.eqb_spec c backslash) as [E0|]; [subst c; cbn; intuition discriminate|].
  destruct (Ascii.eqb_spec c tab) as [E0|]; [subst c; cbn; intuition discriminate|]. destruct (Ascii.eqb_spec c newline) as [E0|]; [subst c; cbn; intuition discriminate|].
  destruct (Ascii.eqb_spec c quote) as [E0|N]; [subst c; discriminate|]. destruct (printable c); [|discriminate]. cbn. intuition congruence.
Qed.
Lemma up_to_quote_all s : ~ In quote s -> up_to_quote (s ++ [quote]) = s.
Proof. induction s as [|c s IH]; cbn; intros H; [reflexivity|]. destruct (Ascii.eqb_spec c quote) as [->|]; [exfalso; apply H; auto|]. rewrite IH; auto. Qed.
Lemma marker name : forallb carried name = true -> up_to_quote (escape name ++ [quote]) = escape name.
Proof.
  intros H. apply up_to_quote_all. unfold escape. rewrite in_flat_map. intros (c & I0 & Q). rewrite forallb_forall in H. now apply (escape_no_quote c (H c I0)).
Qed.
Lemma unescape_char c s : carried c = true -> unescape (escape_char c ++ s) = c :: unescape s.
Proof.
  unfold carried, escape_char. intros H. destruct (Ascii.eqb_spec c backslash) as [E0|NB]; [subst c; reflexivity|].
  destruct (Ascii.eqb_spec c tab) as [E0|NT]; [subst c; reflexivity|]. destruct (Ascii.eqb_spec c newline) as [E0|NN]; [subst c; reflexivity|].
  destruct (Ascii.eqb_spec c quote) as [E0|NQ]; [subst c; discriminate|]. destruct (printable c); [|discriminate].
  cbn [app]. destruct s as [|d s]; [reflexivity|]. cbn [unescape]. destruct (Ascii.eqb_spec c backslash) as [|_]; [congruence|]. reflexivity.
Qed.
Lemma unescape_escape name : forallb carried name = true -> unescape (escape name) = name.
Proof.
  induction name as [|c r IH]; cbn; intros H; [reflexivity|]. apply andb_true_iff in H as (C & H). rewrite unescape_char by auto. change (flat_map escape_char r) with (escape r). now rewrite IH.
Qed.
Lemma escape_inj a b : forallb carried a = true -> forallb carried b = true -> escape a = escape b -> a = b.
Proof. intros A B E. rewrite <- (unescape_escape a A), <- (unescape_escape b B). now rewrite E. Qed.

(** ** The set *)
Lemma insert_in x l y : In y (insert x l) <-> y = x \/ In y l.
Proof.
  induction l as [|d r IH]; cbn; [intuition|]. destruct (text_ltb x d); [cbn; intuition|]. destruct (text_eqb x d) eqn:E; [apply text_eqb_iff in E as ->; cbn; intuition|]. cbn. rewrite IH. intuition.
Qed.
Lemma ltb_irrefl a : text_ltb a a = false.
Proof. induction a as [|x a IH]; cbn -[Nat.ltb nat_of_ascii]; auto. destruct (Nat.ltb_spec (nat_of_ascii x) (nat_of_ascii x)); [lia|auto]. Qed.
Lemma code_inj x y : nat_of_ascii x = nat_of_ascii y -> x = y.
Proof. intros E. rewrite <- (ascii_nat_embedding x), <- (ascii_nat_embedding y). now rewrite E. Qed.
Lemma ltb_trans a b c : text_ltb a b = true -> text_ltb b c = true -> text_ltb a c = true.
Proof.
  revert b c. induction a as [|x a IH]; intros [|y b] [|z c]; cbn -[Nat.ltb nat_of_ascii]; auto; try discriminate.
  destruct (Nat.ltb_spec (nat_of_ascii x) (nat_of_ascii y)), (Nat.ltb_spec (nat_of_ascii y) (nat_of_ascii z)), (Nat.ltb_spec (nat_of_ascii y) (nat_of_ascii x)), (Nat.ltb_spec (nat_of_ascii z) (nat_of_ascii y)),
    (Nat.ltb_spec (nat_of_ascii x) (nat_of_ascii z)), (Nat.ltb_spec (nat_of_ascii z) (nat_of_ascii x)); auto; try discriminate; try lia. apply IH.
Qed.
Lemma ltb_total a b : text_ltb a b = false -> a <> b -> text_ltb b a = true.
Proof.
  revert b. induction a as [|x a IH]; intros [|y b]; cbn -[Nat.ltb nat_of_ascii]; auto; try congruence.
  destruct (Nat.ltb_spec (nat_of_ascii x) (nat_of_ascii y)), (Nat.ltb_spec (nat_of_ascii y) (nat_of_ascii x)); auto; try discriminate; try lia.
  intros F N. assert (x = y) by (apply code_inj; lia). subst. apply IH; auto. congruence.
Qed.
Inductive sorted : list text -> Prop :=
| sorted_nil : sorted []
| sorted_cons x l : (forall y, In y l -> text_ltb x y = true) -> sorted l -> sorted (x :: l).
Lemma insert_sorted x l : sorted l -> sorted (insert x l).
Proof.
  induction 1 as [|d r A B IH]; cbn; [constructor; [intros y []|constructor]|]. destruct (text_ltb x d) eqn:L.
  - constructor; [|constructor; auto]. intros y [<-|I0]; auto. apply (ltb_trans x d y); auto.
  - destruct (text_eqb x d) eqn:E; [constructor; auto|]. constructor; auto. intros y I0. apply insert_in in I0 as [->|I0]; auto. apply ltb_total; auto. intros ->. assert (text_eqb d d = true) by (now apply text_eqb_iff). congruence.
Qed.
Lemma sorted_nodup l : sorted l -> NoDup l.
Proof. induction 1 as [|x l A B IH]; constructor; auto. intros I0. apply A in I0. rewrite ltb_irrefl in I0. discriminate. Qed.
Lemma registered_spec files : sorted (registered files) /\ forall y, In y (registered files) <-> exists f, In f files /\ y = up_to_quote (escape f ++ [quote]) /\ pseudo y = false.
Proof.
  unfold registered. rewrite <- (rev_involutive files). induction (rev files) as [|f fs (S0 & IH)]; cbn [rev]; [split; [constructor|cbn; intros y; split; [tauto|intros (f & [] & _)]]|].
  rewrite fold_left_app. cbn [fold_left]. unfold register at 1 3. set (m := up_to_quote (escape f ++ [quote])) in *. destruct (pseudo m) eqn:P.
  - split; auto. intros y. rewrite IH. split; [intros (g & I0 & H); exists g; split; auto; apply in_or_app; auto|]. intros (g & I0 & E & Q). apply in_app_or in I0 as [I0|[<-|[]]]; eauto. fold m in E. subst. congruence.
  - split; [now apply insert_sorted|]. intros y. rewrite insert_in, IH. split.
    + intros [->|(g & I0 & H)]; [exists f; repeat split; auto; apply in_or_app; right; left; auto|exists g; split; auto; apply in_or_app; auto].
    + intros (g & I0 & E & Q). apply in_app_or in I0 as [I0|[<-|[]]]; [right; eauto|left; auto].
Qed.

(** ** make reads the rule *)
Lemma plain_facts c : plain_char c -> carried c = true /\ c <> backslash /\ c <> newline /\ is_blank c = false /\ c <> ":"%char /\ c <> "<"%char.
Proof.
  intros (P & N). unfold is_blank, carried. rewrite P. assert (X : forall d, In d (list_ascii_of_string " \:#$%*?[]~;=|&()'`<>!{}" ++ [quote]) -> c <> d) by (intros d I0 ->; auto).
  assert (Q : c <> quote) by (apply X; apply in_or_app; right; left; auto).
  assert (B : c <> blank) by (apply X; cbn; auto). assert (BS : c <> backslash) by (apply X; cbn; auto). assert (CO : c <> ":"%char) by (apply X; cbn; auto 10). assert (LT : c <> "<"%char) by (apply X; cbn; repeat (first [left; reflexivity|right])).
  assert (T : c <> tab) by (intros ->; discriminate). assert (NL : c <> newline) by (intros ->; discriminate).
  destruct (Ascii.eqb_spec c quote); [congruence|]. destruct (Ascii.eqb_spec c blank); [congruence|]. destruct (Ascii.eqb_spec c tab); [congruence|]. destruct (Ascii.eqb_spec c newline); [congruence|]. cbn. auto 10.
Qed.
Lemma join_plain s t : Forall plain_char s -> join (s ++ t) = s ++ join t.
Proof.
  induction 1 as [|c s C F IH]; [reflexivity|]. cbn [app]. destruct (plain_facts c C) as (_ & NB & _). rewrite <- IH. destruct (s ++ t) as [|d r] eqn:E; [reflexivity|]. cbn [join]. destruct (Ascii.eqb_spec c backslash); [congruence|]. reflexivity.
Qed.
Lemma join_other c t : c <> backslash -> join (c :: t) = c :: join t.
Proof. intros N. destruct t as [|d r]; [reflexivity|]. cbn [join]. destruct (Ascii.eqb_spec c backslash); [congruence|]. reflexivity. Qed.
Lemma words_plain w s t : Forall plain_char s -> words_from w (s ++ t) = words_from (w ++ s) t.
Proof.
  intros F. revert w. induction F as [|c s C F IH]; intros w; cbn [app]; [now rewrite app_nil_r|]. cbn [words_from]. destruct (plain_facts c C) as (_ & _ & _ & B & _). rewrite B, IH, <- app_assoc. reflexivity.
Qed.
Lemma split_plain s t : Forall plain_char s -> split_colon (s ++ ":"%char :: t) = Some (s, t).
Proof. induction 1 as [|c s C F IH]; [reflexivity|]. cbn [app split_colon]. destruct (plain_facts c C) as (_ & _ & _ & _ & N & _). destruct (Ascii.eqb_spec c ":"); [congruence|]. rewrite IH. reflexivity. Qed.

Lemma flat_map_map (f : text -> text) (g : text -> text) (h : text -> text) l : (forall d, In d l -> f (g d) = h d) -> flat_map f (map g l) = flat_map h l.
Proof. induction l as [|d r IH]; intros H; [reflexivity|]. cbn [map flat_map]. rewrite IH by (intros; apply H; right; auto). rewrite H by (left; auto). reflexivity. Qed.
Definition listed (source : option text) (ds : list text) : list text :=
  match source with Some s => s :: filter (fun d => negb (text_eqb s d)) ds | None => ds end.
Lemma words_deps (skip : text -> bool) names : (forall d, In d names -> plain d) -> forall w,
  words_from w (join (flat_map (fun d => if skip d then [] else [blank; backslash; newline; blank] ++ d) names ++ [newline])) =
  match w with [] => [] | _ => [w] end ++ filter (fun d => negb (skip d)) names.
Proof.
  induction names as [|d r IH]; intros P w; cbn [flat_map filter].
  - cbn. destruct w; reflexivity.
  - destruct (P d (or_introl eq_refl)) as (ND & F). assert (PR : forall x, In x r -> plain x) by (intros; apply P; right; auto). destruct (skip d); cbn [negb app]; [apply IH; auto|].
    rewrite join_other by discriminate. rewrite <- !app_assoc.
    change (join (backslash :: newline :: blank :: ?x)) with (blank :: join (blank :: x)). rewrite join_other by discriminate. rewrite join_plain by auto.
    cbn [words_from]. change (is_blank blank) with true. cbn iota. cbn [app]. rewrite words_plain by auto. cbn [app]. rewrite IH by auto. destruct d; [congruence|]. reflexivity.
Qed.
Lemma make_rule_plain target source names : plain target -> (forall s, source = Some s -> plain s) -> (forall d, In d names -> plain d) ->
  make_rule (rule target source (map escape names)) = Some (target, listed source names).
Proof.
  intros (_ & T) S0 P. unfold make_rule, rule. rewrite join_plain by auto. cbn [of_string list_ascii_of_string app]. rewrite join_other by discriminate. rewrite split_plain by auto. cbn [option_map]. f_equal. f_equal.
  set (skip := fun u => match source with Some s => text_eqb s u | None => false end).
  assert (U : forall d, In d names -> unescape (escape d) = d). { intros d I0. apply unescape_escape. apply forallb_forall. intros c C. destruct (P d I0) as (_ & F). rewrite Forall_forall in F. apply (plain_facts c), F, C. }
  match goal with |- context [flat_map ?f (map escape names)] =>
    rewrite (flat_map_map f escape (fun d => if skip d then [] else [blank; backslash; newline; blank] ++ d) names) by (intros d I0; cbv zeta; rewrite U by auto; reflexivity) end.
  destruct source as [s|]; cbn [listed].
  - destruct (S0 s eq_refl) as (NS & F). cbn [app]. rewrite join_other by discriminate. rewrite join_plain by auto. cbn [words_from]. change (is_blank blank) with true. cbn iota. cbn [app]. rewrite words_plain by auto. cbn [app].
    etransitivity; [apply (words_deps skip names P s)|]. destruct s; [congruence|]. reflexivity.
  - cbn [app]. etransitivity; [apply (words_deps skip names P [])|]. cbn. clear. induction names as [|d r IH]; [reflexivity|]. cbn. now rewrite IH.
Qed.
Lemma plain_carried s : plain s -> forallb carried s = true.
Proof. intros (_ & F). apply forallb_forall. intros c C. rewrite Forall_forall in F. apply (plain_facts c), F, C. Qed.
Lemma escape_plain s : Forall plain_char s -> escape s = s.
Proof.
  induction 1 as [|c s C F IH]; [reflexivity|]. unfold escape in *. cbn [flat_map]. rewrite IH. destruct (plain_facts c C) as (K & NB & NN & B & _). unfold is_blank in B. apply orb_false_iff in B as (B & _). apply orb_false_iff in B as (_ & T).
  unfold escape_char. destruct (Ascii.eqb_spec c backslash); [congruence|]. rewrite T. destruct (Ascii.eqb_spec c newline); [congruence|]. destruct C as (PR & N). rewrite PR. destruct (Ascii.eqb_spec c quote) as [->|]; [exfalso; apply N; apply in_or_app; right; left; auto|]. reflexivity.
Qed.
Lemma pseudo_plain s : plain s -> pseudo s = true <-> library s.
Proof.
  intros (NE & F). unfold pseudo, library. destruct s as [|c s]; [congruence|]. inversion F as [|? ? C _]; subst. destruct (plain_facts c C) as (_ & _ & _ & _ & _ & LT). destruct (Ascii.eqb_spec c "<"); [congruence|].
  cbn [orb map In]. rewrite !orb_true_iff, !text_eqb_iff. intuition congruence.
Qed.
Lemma registered_plain files : (forall f, In f files -> plain f) ->
  registered files = map escape (registered files) /\ NoDup (registered files) /\ (forall y, In y (registered files) <-> In y files /\ ~ library y).
Proof.
  intros P. destruct (registered_spec files) as (S0 & IN).
  assert (M : forall y, In y (registered files) <-> In y files /\ ~ library y).
  { intros y. rewrite IN. split.
    - intros (f & I0 & E & Q). rewrite marker in E by (apply plain_carried; auto). rewrite escape_plain in E by (apply P; auto). subst y. split; auto. rewrite <- pseudo_plain by auto. congruence.
    - intros (I0 & L). exists y. rewrite marker by (apply plain_carried; auto). rewrite escape_plain by (apply P; auto). repeat split; auto. destruct (pseudo y) eqn:E; auto. apply pseudo_plain in E; auto. contradiction. }
  split; [|split; [now apply sorted_nodup|exact M]].
  assert (Q : forall d, In d (registered files) -> escape d = d) by (intros d I0; apply M in I0 as (I0 & _); apply escape_plain, P, I0).
  clear -Q. induction (registered files) as [|d r IH]; [reflexivity|]. cbn [map]. rewrite <- IH by (intros; apply Q; right; auto). rewrite Q by (left; auto). reflexivity.
Qed.
Lemma lines_flat l : (forall d, In d l -> ~ In newline d) -> lines_from [] (flat l) = l.
Proof.
  assert (A : forall w s t, ~ In newline s -> lines_from w (s ++ newline :: t) = (w ++ s) :: lines_from [] t).
  { intros w s t. revert w. induction s as [|c s IH]; intros w N; cbn [app lines_from]; [rewrite app_nil_r; reflexivity|]. destruct (Ascii.eqb_spec c newline) as [->|]; [exfalso; apply N; left; auto|]. rewrite IH, <- app_assoc; auto. intros X. apply N. right. auto. }
  induction l as [|d r IH]; intros N; [reflexivity|]. unfold flat in *. cbn [flat_map]. rewrite <- app_assoc. cbn [app]. rewrite A by (apply N; left; auto). cbn [app]. rewrite IH; auto. intros x I0. apply N. right. auto.
Qed.

(** ** All names that are carried *)
Lemma pseudo_escape f : forallb carried f = true -> pseudo (escape f) = true <-> hd_error f = Some "<"%char \/ library f.
Proof.
  intros C. unfold pseudo, library. cbn [map In]. rewrite !orb_true_iff, !text_eqb_iff.
  assert (K : forall s, escape (of_string s) = of_string s -> forallb carried (of_string s) = true -> escape f = of_string s <-> of_string s = f).
  { intros s E F. split; [|intros <-; exact E]. intros X. symmetry. apply escape_inj; auto. congruence. }
  rewrite !K by reflexivity.
  assert (H : match escape f with [] => false | c :: _ => Ascii.eqb c "<" end = true <-> hd_error f = Some "<"%char).
  { destruct f as [|c r]; [cbn; split; discriminate|]. cbn [escape flat_map hd_error]. cbn [forallb] in C. apply andb_true_iff in C as (C & _). unfold carried in C. unfold escape_char.
    destruct (Ascii.eqb_spec c backslash) as [E0|]; [subst c; cbn; split; discriminate|]. destruct (Ascii.eqb_spec c tab) as [E0|]; [subst c; cbn; split; discriminate|]. destruct (Ascii.eqb_spec c newline) as [E0|]; [subst c; cbn; split; discriminate|].
    destruct (Ascii.eqb_spec c quote) as [E0|]; [subst c; discriminate|]. destruct (printable c); [|discriminate]. cbn [app]. rewrite Ascii.eqb_eq. split; congruence. }
  rewrite H. tauto.
Qed.
Lemma registered_carried files : (forall f, In f files -> forallb carried f = true) ->
  registered files = map escape (map unescape (registered files)) /\ NoDup (map unescape (registered files)) /\
  (forall y, In y (map unescape (registered files)) <-> In y files /\ hd_error y <> Some "<"%char /\ ~ library y).
Proof.
  intros P. destruct (registered_spec files) as (S0 & IN). apply sorted_nodup in S0.
  assert (Q : forall y, In y (registered files) -> exists f, In f files /\ y = escape f /\ pseudo y = false).
  { intros y I0. apply IN in I0 as (f & I0 & E & X). rewrite marker in E by auto. eauto. }
  split; [|split].
  - rewrite map_map. clear S0 IN. induction (registered files) as [|d r IH]; [reflexivity|]. cbn [map]. rewrite <- IH by (intros; apply Q; right; auto). destruct (Q d (or_introl eq_refl)) as (f & I0 & -> & _). now rewrite unescape_escape by auto.
  - clear IN. induction S0 as [|d r N S0 IH]; cbn [map]; constructor; [|apply IH; intros; apply Q; right; auto]. intros X. apply in_map_iff in X as (e & E & I0). apply N.
    destruct (Q d (or_introl eq_refl)) as (f & If & -> & _). destruct (Q e (or_intror I0)) as (g & Ig & -> & _). rewrite !unescape_escape in E by auto. now subst.
  - intros y. rewrite in_map_iff. split.
    + intros (d & <- & I0). destruct (Q d I0) as (f & If & -> & X). rewrite unescape_escape by auto. split; auto. assert (Y : ~ pseudo (escape f) = true) by congruence. rewrite pseudo_escape in Y by auto. tauto.
    + intros (I0 & H & L). exists (escape y). split; [apply unescape_escape; auto|]. apply IN. exists y. rewrite marker by auto. repeat split; auto. destruct (pseudo (escape y)) eqn:E; auto. apply pseudo_escape in E; auto. tauto.
Qed.
Lemma rule_carried target source names : (forall d, In d names -> forallb carried d = true) ->
  rule target source (map escape names) =
  target ++ of_string ":" ++ (match source with Some s => blank :: s | None => [] end)
  ++ flat_map (fun n => [blank; backslash; newline; blank] ++ n) (filter (fun d => negb (match source with Some s => text_eqb s d | None => false end)) names) ++ [newline].
Proof.
  intros P. unfold rule. do 3 f_equal. f_equal. induction names as [|d r IH]; [reflexivity|]. cbn [map flat_map filter]. rewrite IH by (intros; apply P; right; auto). rewrite unescape_escape by (apply P; left; auto). cbv zeta.
  destruct (match source with Some s => text_eqb s d | None => false end); reflexivity.
Qed.
