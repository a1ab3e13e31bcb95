(** The list of instances: one per list of arguments, and which body it has. *)
From Coq Require Import ZArith NArith Bool Ascii List Lia.
From Verif Require Import TemplModel TemplSpec TemplProofs TemplProofs2.
Import ListNotations.

Definition ok_args (l : insts) : Prop := forall i, In i l -> Forall ordinary_arg (i_args i).

Lemma targ_equal_iff : forall a b, ordinary_arg a -> ordinary_arg b -> (targ_equal a b = true <-> a = b).
Proof.
  intros [s|i m] [u|j n] Ha Hb; cbn.
  - rewrite type_equal_iff by assumption. split; congruence.
  - split; discriminate.
  - split; discriminate.
  - rewrite andb_true_iff, Nat.eqb_eq, Z.eqb_eq. split; [intros [-> ->]; reflexivity | intros H; injection H; auto].
Qed.
Lemma targs_equal_iff : forall a b, Forall ordinary_arg a -> Forall ordinary_arg b ->
  (targs_equal a b = true <-> a = b).
Proof.
  induction a as [|x a IH]; intros [|y b] Ha Hb; cbn; try (split; congruence).
  inversion Ha; inversion Hb; subst. rewrite andb_true_iff, IH, targ_equal_iff by assumption.
  split; [intros [-> ->]; reflexivity | intros H; injection H; auto].
Qed.

(** ** Lookup *)
Lemma lookup_inst_spec : forall l args n k, Forall ordinary_arg args -> ok_args l ->
  (lookup_inst l args n = Some k <->
   n <= k /\ nth_error (map i_args l) (k - n) = Some args /\
   forall j, j < k - n -> nth_error (map i_args l) j <> Some args).
Proof.
  induction l as [|i l IH]; intros args n k O OK; cbn [lookup_inst map].
  - split; [discriminate|]. intros (_ & H & _). destruct (k - n); discriminate.
  - assert (Oi : Forall ordinary_arg (i_args i)) by (apply OK; left; reflexivity).
    assert (OK' : ok_args l) by (intros j Hj; apply OK; right; assumption).
    destruct (targs_equal (i_args i) args) eqn:E.
    + apply targs_equal_iff in E; auto. subst args. split.
      * intros H. injection H as <-. rewrite Nat.sub_diag. repeat split; auto. intros j Hj. lia.
      * intros (L & H & M). destruct (k - n) as [|d] eqn:D; [f_equal; lia|].
        exfalso. apply (M 0); [lia | reflexivity].
    + assert (NE : i_args i <> args) by (intros H; apply targs_equal_iff in H; auto; congruence).
      rewrite IH by assumption. split.
      * intros (L & H & M). split; [lia|]. replace (k - n) with (S (k - S n)) by lia. split; [exact H|].
        intros [|j] Hj; cbn; [congruence | apply M; lia].
      * intros (L & H & M). destruct (k - n) as [|d] eqn:D; [cbn in H; congruence|].
        split; [lia|]. replace (k - S n) with d by lia. split; [exact H|].
        intros j Hj. apply (M (S j)). lia.
Qed.
Lemma lookup_inst_none : forall l args n, Forall ordinary_arg args -> ok_args l ->
  (lookup_inst l args n = None <-> ~ In args (map i_args l)).
Proof.
  induction l as [|i l IH]; intros args n O OK; cbn [lookup_inst map]; [cbn; tauto|].
  assert (Oi : Forall ordinary_arg (i_args i)) by (apply OK; left; reflexivity).
  assert (OK' : ok_args l) by (intros j Hj; apply OK; right; assumption).
  destruct (targs_equal (i_args i) args) eqn:E.
  - apply targs_equal_iff in E; auto. split; [discriminate|]. cbn. tauto.
  - assert (NE : i_args i <> args) by (intros H; apply targs_equal_iff in H; auto; congruence).
    rewrite IH by assumption. cbn. tauto.
Qed.

(** ** The instance for given arguments, as a function of the arguments *)
Definition find (l : insts) (args : list targ) : option inst :=
  match lookup_inst l args 0 with Some k => nth_error l k | None => None end.

Lemma find_args : forall l args i, Forall ordinary_arg args -> ok_args l -> find l args = Some i -> i_args i = args.
Proof.
  intros l args i O OK H. unfold find in H. destruct (lookup_inst l args 0) as [k|] eqn:L; [|discriminate].
  apply lookup_inst_spec in L; auto. destruct L as (_ & E & _). rewrite Nat.sub_0_r in E.
  rewrite nth_error_map, H in E. cbn in E. congruence.
Qed.
Lemma find_none : forall l args, Forall ordinary_arg args -> ok_args l ->
  (find l args = None <-> lookup_inst l args 0 = None).
Proof.
  intros l args O OK. unfold find. destruct (lookup_inst l args 0) as [k|] eqn:L; [|tauto].
  apply lookup_inst_spec in L; auto. destruct L as (_ & E & _). rewrite Nat.sub_0_r, nth_error_map in E.
  destruct (nth_error l k); [split; discriminate | discriminate].
Qed.

Lemma lookup_app : forall l i args n, 
  lookup_inst (l ++ [i]) args n =
  match lookup_inst l args n with
  | Some k => Some k
  | None => if targs_equal (i_args i) args then Some (n + length l) else None
  end.
Proof.
  induction l as [|j l IH]; intros i args n; cbn.
  - rewrite Nat.add_0_r. reflexivity.
  - destruct (targs_equal (i_args j) args); [reflexivity|]. rewrite IH.
    destruct (lookup_inst l args (S n)); [reflexivity|]. replace (S n + length l) with (n + S (length l)) by lia.
    reflexivity.
Qed.
Lemma find_app : forall l i args, Forall ordinary_arg args -> ok_args l ->
  find (l ++ [i]) args =
  match find l args with
  | Some j => Some j
  | None => if targs_equal (i_args i) args then Some i else None
  end.
Proof.
  intros l i args O OK. unfold find. rewrite lookup_app.
  destruct (lookup_inst l args 0) as [k|] eqn:L.
  - apply lookup_inst_spec in L; auto. destruct L as (_ & E & _). rewrite Nat.sub_0_r, nth_error_map in E.
    destruct (nth_error l k) as [j|] eqn:N; [|discriminate].
    rewrite nth_error_app1 by (apply nth_error_Some; congruence). rewrite N. reflexivity.
  - destruct (targs_equal (i_args i) args); [|reflexivity].
    rewrite nth_error_app2 by (cbn; lia). cbn. rewrite Nat.sub_diag. reflexivity.
Qed.

Lemma set_inst_args : forall l k f, (forall i, i_args (f i) = i_args i) -> map i_args (set_inst l k f) = map i_args l.
Proof.
  intros l k f H. unfold set_inst. destruct (nth_error l k) as [i|] eqn:E; [|reflexivity].
  rewrite map_app. cbn [map]. rewrite H.
  assert (S : l = firstn k l ++ i :: skipn (S k) l).
  { revert k E. induction l as [|j l IH]; intros [|k] E; cbn in E; try discriminate; cbn.
    - congruence.
    - rewrite <- IH by assumption. reflexivity. }
  rewrite S at 3. rewrite map_app. reflexivity.
Qed.
Lemma lookup_by_args : forall l l' args n, map i_args l = map i_args l' -> lookup_inst l args n = lookup_inst l' args n.
Proof.
  induction l as [|i l IH]; intros [|j l'] args n E; cbn in E; try discriminate; [reflexivity|].
  cbn. injection E as E1 E2. rewrite E1. destruct (targs_equal (i_args j) args); auto.
Qed.
Lemma set_inst_nth : forall l k f j, nth_error (set_inst l k f) j =
  match nth_error l j with
  | Some i => Some (if Nat.eqb j k then f i else i)
  | None => None
  end.
Proof.
  intros l k f j. unfold set_inst. destruct (nth_error l k) as [i|] eqn:E.
  - assert (S : l = firstn k l ++ i :: skipn (S k) l).
    { revert k E. clear j. induction l as [|j l IH]; intros [|k] E; cbn in E; try discriminate; cbn.
      - congruence.
      - rewrite <- IH by assumption. reflexivity. }
    assert (LK : length (firstn k l) = k).
    { rewrite firstn_length. assert (k < length l) by (apply nth_error_Some; congruence). lia. }
    rewrite S at 3. destruct (Nat.lt_trichotomy j k) as [L|[->|L]].
    + rewrite !nth_error_app1 by lia. destruct (Nat.eqb_spec j k); [lia|].
      destruct (nth_error (firstn k l) j); reflexivity.
    + rewrite !nth_error_app2 by lia. rewrite LK, Nat.sub_diag, Nat.eqb_refl. reflexivity.
    + rewrite !nth_error_app2 by lia. rewrite LK. destruct (j - k) as [|d] eqn:D; [lia|]. cbn.
      destruct (Nat.eqb_spec j k); [lia|]. destruct (nth_error _ d); reflexivity.
  - destruct (nth_error l j) eqn:F; [|reflexivity]. destruct (Nat.eqb_spec j k); [congruence | reflexivity].
Qed.
Lemma find_set : forall l k f args args', Forall ordinary_arg args -> Forall ordinary_arg args' -> ok_args l ->
  (forall i, i_args (f i) = i_args i) -> lookup_inst l args 0 = Some k ->
  find (set_inst l k f) args' = match find l args' with
                                | Some i => Some (if targs_equal args args' then f i else i)
                                | None => None
                                end.
Proof.
  intros l k f args args' O O' OK H L. unfold find.
  rewrite (lookup_by_args (set_inst l k f) l) by (apply set_inst_args; assumption).
  destruct (lookup_inst l args' 0) as [k'|] eqn:L'; [|reflexivity].
  rewrite set_inst_nth. destruct (nth_error l k') as [i|] eqn:N; [|reflexivity]. f_equal.
  replace (targs_equal args args') with (Nat.eqb k' k); [reflexivity|].
  destruct (targs_equal args args') eqn:E.
  - apply targs_equal_iff in E; auto. subst args'. rewrite L in L'. injection L' as ->. apply Nat.eqb_refl.
  - apply Nat.eqb_neq. intros ->. apply lookup_inst_spec in L; auto. apply lookup_inst_spec in L'; auto.
    destruct L as (_ & L & _), L' as (_ & L' & _). rewrite L in L'. injection L' as ->.
    rewrite (proj2 (targs_equal_iff args' args' O' O') eq_refl) in E. discriminate.
Qed.

(** ** Steps *)
Lemma types_equal_refl : forall l, types_equal l l = true.
Proof. induction l; cbn; [reflexivity|]. rewrite type_equal_refl. assumption. Qed.

Lemma map_normalize : forall ex, Forall (fun a => ordinary_arg (normalize a)) ex -> Forall ordinary_arg (map normalize ex).
Proof. induction 1; cbn; constructor; auto. Qed.
Lemma map_varying : forall ex, Forall (fun a => ordinary_arg (set_as_varying a)) ex ->
  Forall ordinary_arg (map set_as_varying ex).
Proof. induction 1; cbn; constructor; auto. Qed.

Lemma ok_app : forall l i, ok_args l -> Forall ordinary_arg (i_args i) -> ok_args (l ++ [i]).
Proof. intros l i H O j Hj. apply in_app_or in Hj. destruct Hj as [|[<-|[]]]; auto. Qed.
Lemma ok_by_args : forall l l', map i_args l = map i_args l' -> ok_args l -> ok_args l'.
Proof.
  intros l l' E H i Hi. apply (in_map i_args) in Hi. rewrite <- E in Hi. apply in_map_iff in Hi.
  destruct Hi as (j & <- & Hj). apply H. assumption.
Qed.

(* a step appends to the list of the instances' arguments *)
Lemma step_args : forall t l c l' o, complete c -> ok_args l -> step t l c = Some (l', o) ->
  ok_args l' /\ (exists x, map i_args l' = map i_args l ++ x) /\
  (forall ex a, c = Call ex a -> exists r k, template_args t (map normalize ex) a = Match r /\ o = Some k /\
     Forall ordinary_arg r /\ lookup_inst l' r 0 = Some k).
Proof.
  intros t l c l' o C OK S. destruct c as [ex args|a fs ret|a fs ret id|a fs]; cbn [step] in S.
  - destruct C as [Cex Ca]. apply map_normalize in Cex.
    destruct (template_args t (map normalize ex) args) as [r| |] eqn:T; try discriminate.
    assert (Or := template_args_ok t _ args r Cex Ca T).
    unfold call in S. destruct (lookup_inst l r 0) as [k|] eqn:L.
    + injection S as <- <-. split; [assumption|]. split; [exists []; rewrite app_nil_r; reflexivity|].
      intros ex' a' E. injection E as <- <-. exists r, k. auto.
    + injection S as <- <-. unfold add_inst. split; [apply ok_app; assumption|]. split.
      * eexists. rewrite map_app. reflexivity.
      * intros ex' a' E. injection E as <- <-. exists r, (length l). repeat split; auto.
        rewrite lookup_app, L. cbn [i_args].
        rewrite (proj2 (targs_equal_iff r r Or Or) eq_refl). reflexivity.
  - cbn in C. apply map_varying in C. unfold declare_special in S.
    destruct (negb _); [discriminate|].
    destruct (lookup_inst l (map set_as_varying a) 0) as [k|] eqn:L.
    + assert (E : l' = l).
      { destruct (nth_error l k) as [i|]; [destruct (_ && _ && _)%bool; [discriminate|]|];
          injection S as <- <-; reflexivity. }
      subst l'. split; [assumption|]. split; [exists []; rewrite app_nil_r; reflexivity | discriminate].
    + injection S as <- <-. split; [apply ok_app; assumption|]. split; [eexists; rewrite map_app; reflexivity | discriminate].
  - cbn in C. apply map_varying in C. unfold define_special in S.
    destruct (declare_special t l a fs ret) as [l1|] eqn:D; [|discriminate].
    assert (K : ok_args l1 /\ exists x, map i_args l1 = map i_args l ++ x).
    { unfold declare_special in D. destruct (negb _); [discriminate|].
      destruct (lookup_inst l (map set_as_varying a) 0) as [k|] eqn:L.
      - assert (E : l1 = l)
          by (destruct (nth_error l k) as [i|]; [destruct (_ && _ && _)%bool; [discriminate|]|]; congruence).
        subst l1. split; [assumption | exists []; rewrite app_nil_r; reflexivity].
      - injection D as <-. split; [apply ok_app; assumption | eexists; rewrite map_app; reflexivity]. }
    destruct K as [OK1 [x Hx]].
    destruct (lookup_inst l1 (map set_as_varying a) 0) as [k|] eqn:L; [|discriminate].
    cbn in S. injection S as <- <-.
    assert (E : map i_args (set_inst l1 k (fun i => Inst (i_args i) fs ret (i_llvm i) (Special id))) = map i_args l1)
      by (apply set_inst_args; reflexivity).
    split; [apply (ok_by_args l1); auto|]. split; [exists x; congruence | discriminate].
  - cbn in C. apply map_varying in C. unfold explicit_inst in S.
    destruct (match_template _ _ _); [|discriminate]. cbn in S. injection S as <- <-. unfold add_inst.
    split; [apply ok_app; assumption|]. split; [eexists; rewrite map_app; reflexivity | discriminate].
Qed.

Lemma lookup_stable : forall l l' x args k, Forall ordinary_arg args -> ok_args l -> ok_args l' ->
  map i_args l' = map i_args l ++ x -> lookup_inst l args 0 = Some k -> lookup_inst l' args 0 = Some k.
Proof.
  intros l l' x args k O OK OK' E L. apply lookup_inst_spec in L; auto. apply lookup_inst_spec; auto.
  destruct L as (_ & N & M). rewrite Nat.sub_0_r in *. split; [lia|]. rewrite E.
  assert (B : k < length (map i_args l)) by (apply nth_error_Some; congruence).
  split; [rewrite nth_error_app1; auto|]. intros j Hj. rewrite nth_error_app1 by lia. auto.
Qed.

(** ** Runs *)
Lemma run_args : forall t cs l l' os, Forall complete cs -> ok_args l -> run t l cs = Some (l', os) ->
  ok_args l' /\ (exists x, map i_args l' = map i_args l ++ x) /\
  (forall n ex a, nth_error cs n = Some (Call ex a) ->
     exists r k, template_args t (map normalize ex) a = Match r /\ nth_error os n = Some (Some k) /\
       Forall ordinary_arg r /\ lookup_inst l' r 0 = Some k).
Proof.
  intros t. induction cs as [|c cs IH]; intros l l' os C OK R; cbn in R.
  - injection R as <- <-. split; [assumption|]. split; [exists []; rewrite app_nil_r; reflexivity|].
    intros [|n]; discriminate.
  - inversion C as [|? ? Cc Cs]; subst.
    destruct (step t l c) as [[l1 o]|] eqn:S; [|discriminate].
    destruct (run t l1 cs) as [[l2 os2]|] eqn:R2; [|discriminate]. injection R as <- <-.
    destruct (step_args t l c l1 o Cc OK S) as (OK1 & [x1 E1] & S1).
    destruct (IH l1 l2 os2 Cs OK1 R2) as (OK2 & [x2 E2] & S2).
    split; [assumption|]. split; [exists (x1 ++ x2); rewrite E2, E1, app_assoc; reflexivity|].
    intros [|n] ex a N; cbn in N.
    + injection N as ->. destruct (S1 ex a eq_refl) as (r & k & T & -> & Or & L). exists r, k. repeat split; auto.
      apply (lookup_stable l1 l2 x2); auto.
    + apply S2 in N. exact N.
Qed.

(** C69_same_instance *)
Theorem same_instance : forall t cs l os, Forall complete cs -> run t [] cs = Some (l, os) ->
  forall m n ex1 a1 ex2 a2, nth_error cs m = Some (Call ex1 a1) -> nth_error cs n = Some (Call ex2 a2) ->
  exists r1 r2 k1 k2,
    template_args t (map normalize ex1) a1 = Match r1 /\ template_args t (map normalize ex2) a2 = Match r2 /\
    nth_error os m = Some (Some k1) /\ nth_error os n = Some (Some k2) /\
    (exists i, nth_error l k1 = Some i /\ i_args i = r1) /\ (k1 = k2 <-> r1 = r2).
Proof.
  intros t cs l os C R m n ex1 a1 ex2 a2 M N.
  assert (OK0 : ok_args []) by (intros i []).
  destruct (run_args t cs [] l os C OK0 R) as (OK & _ & S).
  destruct (S m ex1 a1 M) as (r1 & k1 & T1 & O1 & F1 & L1).
  destruct (S n ex2 a2 N) as (r2 & k2 & T2 & O2 & F2 & L2).
  exists r1, r2, k1, k2. repeat split; auto.
  - apply lookup_inst_spec in L1; auto. destruct L1 as (_ & E & _). rewrite Nat.sub_0_r, nth_error_map in E.
    destruct (nth_error l k1) as [i|]; [|discriminate]. exists i. split; [reflexivity | cbn in E; congruence].
  - intros ->. apply lookup_inst_spec in L1; auto. apply lookup_inst_spec in L2; auto.
    destruct L1 as (_ & E1 & _), L2 as (_ & E2 & _). congruence.
  - intros ->. congruence.
Qed.

(** ** Bodies *)
(* what the commands so far say about the instance for the arguments r *)
Definition state_ok (t : templ) (cs : list cmd) (r : list targ) (o : option inst) : Prop :=
  match o with
  | None => (forall c, In c cs -> ~ declares r c) /\ (forall c, In c cs -> ~ uses t r c)
  | Some i =>
      i_args i = r /\ i_params i = inst_params t r /\ i_ret i = inst_ret t r /\ i_llvm i = inst_ret t r /\
      match i_body i with
      | Primary => (forall c, In c cs -> ~ declares r c) /\ (exists c, In c cs /\ uses t r c)
      | NoBody => (exists c, In c cs /\ declares r c) /\ (forall c, In c cs -> ~ defines r c)
      | Special id => (exists c, In c cs /\ defines_as r id c) /\ (forall c k, In c cs -> defines_as r k c -> k = id)
      end
  end.
Definition inv (t : templ) (cs : list cmd) (l : insts) : Prop :=
  ok_args l /\ forall r, Forall ordinary_arg r -> state_ok t cs r (find l r).

Lemma defines_as_declares : forall r id c, defines_as r id c -> declares r c.
Proof. intros r id [| | |]; cbn; tauto. Qed.
Lemma defines_declares : forall r c, defines r c -> declares r c.
Proof. intros r [| | |]; cbn; tauto. Qed.
Lemma defines_some : forall r c, defines r c -> exists id, defines_as r id c.
Proof. intros r [| | |]; cbn; try tauto. eauto. Qed.
Lemma defines_as_defines : forall r id c, defines_as r id c -> defines r c.
Proof. intros r id [| | |]; cbn; tauto. Qed.

(* a command that has nothing to do with r keeps what is known *)
Lemma state_ok_skip : forall t cs c r o, ~ declares r c -> ~ uses t r c ->
  state_ok t cs r o -> state_ok t (cs ++ [c]) r o.
Proof.
  intros t cs c r o ND NU H. unfold state_ok in *.
  assert (DA : forall id, ~ defines_as r id c) by (intros id X; apply ND; eapply defines_as_declares; eauto).
  assert (DF : ~ defines r c) by (intros X; apply ND; apply defines_declares; auto).
  assert (IN : forall d, In d (cs ++ [c]) -> In d cs \/ d = c) by (intros d X; apply in_app_or in X; cbn in X; intuition).
  assert (OUT : forall d, In d cs -> In d (cs ++ [c])) by (intros; apply in_or_app; auto).
  destruct o as [i|].
  - destruct H as (A & B & C & D & H). repeat split; auto.
    destruct (i_body i).
    + destruct H as [H1 (d & H2 & H3)]. split; [|exists d; auto].
      intros d' X. destruct (IN d' X) as [Y | ->]; auto.
    + destruct H as [(d & H2 & H3) H1]. split; [exists d; auto|].
      intros d' k X Y. destruct (IN d' X) as [Z | ->]; [eauto | destruct (DA k Y)].
    + destruct H as [(d & H2 & H3) H1]. split; [exists d; auto|].
      intros d' X. destruct (IN d' X) as [Y | ->]; auto.
  - destruct H as [H1 H2]. split; intros d X; destruct (IN d X) as [Y | ->]; auto.
Qed.
(* a use of an existing instance keeps it *)
Lemma state_ok_use : forall t cs c r i, ~ declares r c -> state_ok t cs r (Some i) -> state_ok t (cs ++ [c]) r (Some i).
Proof.
  intros t cs c r i ND H. unfold state_ok in *.
  assert (DA : forall id, ~ defines_as r id c) by (intros id X; apply ND; eapply defines_as_declares; eauto).
  assert (DF : ~ defines r c) by (intros X; apply ND; apply defines_declares; auto).
  assert (IN : forall d, In d (cs ++ [c]) -> In d cs \/ d = c) by (intros d X; apply in_app_or in X; cbn in X; intuition).
  assert (OUT : forall d, In d cs -> In d (cs ++ [c])) by (intros; apply in_or_app; auto).
  destruct H as (A & B & C & D & H). repeat split; auto.
  destruct (i_body i).
  + destruct H as [H1 (d & H2 & H3)]. split; [|exists d; auto].
    intros d' X. destruct (IN d' X) as [Y | ->]; auto.
  + destruct H as [(d & H2 & H3) H1]. split; [exists d; auto|].
    intros d' k X Y. destruct (IN d' X) as [Z | ->]; [eauto | destruct (DA k Y)].
  + destruct H as [(d & H2 & H3) H1]. split; [exists d; auto|].
    intros d' X. destruct (IN d' X) as [Y | ->]; auto.
Qed.

(* the first instance for r is made by a use *)
Lemma inv_add : forall t cs c l r, Forall ordinary_arg r -> inv t cs l -> uses t r c ->
  (forall r', declares r' c -> False) -> (forall r', uses t r' c -> r' = r) ->
  inv t (cs ++ [c]) (add_inst t l r).
Proof.
  intros t cs c l r O [OK I] U ND NU. unfold add_inst. split; [apply ok_app; assumption|].
  intros r' O'. rewrite find_app by assumption. specialize (I r' O').
  destruct (find l r') as [i|] eqn:F.
  - apply state_ok_use; auto. intros X. destruct (ND r' X).
  - cbn [i_args]. destruct (targs_equal r r') eqn:E.
    + apply targs_equal_iff in E; auto. subst r'. cbn.
      destruct I as [I1 I2]. repeat split; auto.
      * intros d X. apply in_app_or in X. destruct X as [X|[<-|[]]]; auto. intros Y. destruct (ND r Y).
      * exists c. split; [apply in_or_app; right; left; reflexivity | assumption].
    + apply state_ok_skip; auto; [intros X; destruct (ND r' X)|].
      intros X. apply NU in X. subst r'. rewrite (proj2 (targs_equal_iff r r O O) eq_refl) in E. discriminate.
Qed.

Lemma inv_step : forall t cs c l l' o, complete c -> same_signature t c -> inv t cs l ->
  step t l c = Some (l', o) -> inv t (cs ++ [c]) l'.
Proof.
  intros t cs c l l' o C SS [OK I] S. destruct c as [ex args|a fs ret|a fs ret id|a fs]; cbn [step] in S.
  - destruct C as [Cex Ca]. apply map_normalize in Cex.
    destruct (template_args t (map normalize ex) args) as [r| |] eqn:T; try discriminate.
    assert (Or := template_args_ok t _ args r Cex Ca T).
    unfold call in S. destruct (lookup_inst l r 0) as [k|] eqn:L.
    + injection S as <- <-. split; [assumption|]. intros r' O'. specialize (I r' O').
      destruct (find l r') as [i|] eqn:F; [apply state_ok_use; auto|].
      apply state_ok_skip; auto. cbn. rewrite T. intros X. injection X as ->.
      apply find_none in F; auto. congruence.
    + injection S as <- <-. apply inv_add; auto; [split; auto|].
      cbn. rewrite T. intros r' X. injection X as ->. reflexivity.
  - (* declaration of a specialization *)
    cbn in C. apply map_varying in C. destruct SS as [-> ->]. unfold declare_special in S.
    destruct (negb _); [discriminate|]. set (r := map set_as_varying a) in *.
    destruct (lookup_inst l r 0) as [k|] eqn:L.
    + assert (FI : exists i, find l r = Some i /\ nth_error l k = Some i).
      { unfold find. rewrite L. apply lookup_inst_spec in L; auto. destruct L as (_ & E & _).
        rewrite Nat.sub_0_r, nth_error_map in E. destruct (nth_error l k); [eauto | discriminate]. }
      destruct FI as (i & F & N). rewrite N in S.
      pose proof (I r C) as Ir. rewrite F in Ir. cbn in Ir. destruct Ir as (A & P & R & V & Ib).
      rewrite P, R, types_equal_refl, type_equal_refl in S. cbn [andb] in S.
      destruct (has_body i) eqn:HB; [discriminate|]. injection S as <- <-.
      split; [assumption|]. intros r' O'. specialize (I r' O').
      destruct (find l r') as [i'|] eqn:F'.
      * destruct (targs_equal r r') eqn:E.
        -- apply targs_equal_iff in E; auto. subst r'. rewrite F in F'. injection F' as <-.
           cbn. repeat split; auto. unfold has_body in HB. destruct (i_body i); try discriminate.
           destruct Ib as [(d & H2 & H3) H1]. split; [exists d; split; [apply in_or_app; auto | assumption]|].
           intros d' X. apply in_app_or in X. destruct X as [X|[<-|[]]]; auto.
        -- apply state_ok_use; auto. cbn. fold r. intros <-.
           rewrite (proj2 (targs_equal_iff r r C C) eq_refl) in E. discriminate.
      * apply state_ok_skip; [cbn; fold r | intros [] | exact I]. intros <-. congruence.
    + injection S as <- <-. split; [apply ok_app; assumption|].
      intros r' O'. rewrite find_app by assumption. specialize (I r' O'). cbn [i_args].
      destruct (find l r') as [i|] eqn:F.
      * apply state_ok_use; auto. cbn. fold r. intros <-. unfold find in F. rewrite L in F. discriminate.
      * destruct (targs_equal r r') eqn:E.
        -- apply targs_equal_iff in E; auto. subst r'. cbn. destruct I as [I1 I2]. repeat split; auto.
           ++ eexists. split; [apply in_or_app; right; left; reflexivity|]. reflexivity.
           ++ intros d X. apply in_app_or in X. destruct X as [X|[<-|[]]]; [|cbn; tauto].
              intros Y. apply (I1 d X). apply defines_declares; assumption.
        -- apply state_ok_skip; [cbn; fold r | intros [] | exact I]. intros <-.
           rewrite (proj2 (targs_equal_iff r r C C) eq_refl) in E. discriminate.
  - (* definition of a specialization *)
    cbn in C. apply map_varying in C. destruct SS as [-> ->]. unfold define_special in S.
    destruct (declare_special t l a _ _) as [l1|] eqn:D; [|discriminate].
    unfold declare_special in D. destruct (negb _); [discriminate|]. set (r := map set_as_varying a) in *.
    (* the instance to be filled in *)
    assert (K : ok_args l1 /\
      (exists i, find l1 r = Some i /\ i_llvm i = inst_ret t r /\ i_args i = r) /\
      (forall c, In c cs -> ~ defines r c) /\
      (forall r', Forall ordinary_arg r' -> r' <> r -> find l1 r' = find l r')).
    { destruct (lookup_inst l r 0) as [k|] eqn:L.
      - assert (FI : exists i, find l r = Some i /\ nth_error l k = Some i).
        { unfold find. rewrite L. apply lookup_inst_spec in L; auto. destruct L as (_ & E & _).
          rewrite Nat.sub_0_r, nth_error_map in E. destruct (nth_error l k); [eauto | discriminate]. }
        destruct FI as (i & F & N). rewrite N in D.
        pose proof (I r C) as Ir. rewrite F in Ir. cbn in Ir. destruct Ir as (A & P & R & V & Ib).
        rewrite P, R, types_equal_refl, type_equal_refl in D. cbn [andb] in D.
        destruct (has_body i) eqn:HB; [discriminate|]. injection D as <-.
        split; [assumption|]. split; [exists i; auto|]. split; [|auto].
        unfold has_body in HB. destruct (i_body i); try discriminate. tauto.
      - injection D as <-. split; [apply ok_app; assumption|].
        pose proof (I r C) as Ir. assert (F : find l r = None) by (apply find_none; assumption).
        rewrite F in Ir. destruct Ir as [I1 I2]. split.
        + eexists. rewrite find_app, F by assumption. cbn [i_args].
          rewrite (proj2 (targs_equal_iff r r C C) eq_refl). split; [reflexivity|]. split; reflexivity.
        + split; [intros c X Y; apply (I1 c X); apply defines_declares; assumption|].
          intros r' O' NE. rewrite find_app by assumption. destruct (find l r') eqn:F'; [reflexivity|].
          cbn [i_args]. destruct (targs_equal r r') eqn:E; [|reflexivity].
          apply targs_equal_iff in E; auto. congruence. }
    destruct K as (OK1 & (i & Fi & Vi & Ai) & ND & OTH).
    destruct (lookup_inst l1 r 0) as [k|] eqn:L1; [|discriminate]. cbn in S. injection S as <- <-.
    assert (E : map i_args (set_inst l1 k (fun i => Inst (i_args i) (inst_params t r) (inst_ret t r) (i_llvm i) (Special id)))
                = map i_args l1) by (apply set_inst_args; reflexivity).
    split; [apply (ok_by_args l1); auto|].
    intros r' O'. rewrite (find_set l1 k _ r r') by auto.
    destruct (targs_equal r r') eqn:Eq.
    + apply targs_equal_iff in Eq; auto. subst r'. rewrite Fi. cbn. repeat split; auto.
      * eexists. split; [apply in_or_app; right; left; reflexivity|]. cbn. auto.
      * intros d k' X Y. apply in_app_or in X. destruct X as [X|[<-|[]]].
        -- exfalso. apply (ND d X). eapply defines_as_defines; eauto.
        -- cbn in Y. symmetry. tauto.
    + assert (NE : r' <> r).
      { intros ->. rewrite (proj2 (targs_equal_iff r r C C) eq_refl) in Eq. discriminate. }
      rewrite OTH by assumption. specialize (I r' O').
      assert (KK : state_ok t (cs ++ [Define a (inst_params t r) (inst_ret t r) id]) r' (find l r')).
      { apply state_ok_skip; [cbn; fold r | intros [] | exact I]. congruence. }
      destruct (find l r'); exact KK.
  - (* explicit instantiation *)
    cbn in C. apply map_varying in C. unfold explicit_inst in S.
    destruct (match_template _ _ _); [|discriminate]. cbn in S. injection S as <- <-.
    apply inv_add; auto; [split; auto | reflexivity].
Qed.

Lemma inv_run : forall t cs done l l' os, Forall complete cs -> Forall (same_signature t) cs -> inv t done l ->
  run t l cs = Some (l', os) -> inv t (done ++ cs) l'.
Proof.
  intros t. induction cs as [|c cs IH]; intros done l l' os C SS I R; cbn in R.
  - injection R as <- <-. rewrite app_nil_r. assumption.
  - inversion C; inversion SS; subst.
    destruct (step t l c) as [[l1 o]|] eqn:S; [|discriminate].
    destruct (run t l1 cs) as [[l2 os2]|] eqn:R2; [|discriminate]. injection R as <- <-.
    replace (done ++ c :: cs) with ((done ++ [c]) ++ cs) by (rewrite <- app_assoc; reflexivity).
    apply (IH (done ++ [c]) l1 l2 os2); auto. apply (inv_step t done c l l1 o); auto.
Qed.
Lemma inv_nil : forall t, inv t [] [].
Proof. intros t. split; [intros i [] | intros r O; cbn; split; intros c []]. Qed.

(** C69_body *)
Theorem call_body : forall t cs l os, Forall complete cs -> Forall (same_signature t) cs ->
  run t [] cs = Some (l, os) ->
  forall n ex a r k, nth_error cs n = Some (Call ex a) -> template_args t (map normalize ex) a = Match r ->
  nth_error os n = Some (Some k) ->
  exists i, nth_error l k = Some i /\ i_args i = r /\
    i_params i = inst_params t r /\ i_ret i = inst_ret t r /\ i_llvm i = inst_ret t r /\
    ((forall c, In c cs -> ~ declares r c) -> i_body i = Primary) /\
    (forall c id, In c cs -> defines_as r id c -> i_body i = Special id).
Proof.
  intros t cs l os C SS R n ex a r k N T K.
  destruct (run_args t cs [] l os C (fun i (h : In i []) => match h with end) R) as (OK & _ & S).
  destruct (S n ex a N) as (r' & k' & T' & K' & O & L).
  assert (r' = r) by congruence. assert (k' = k) by congruence. subst r' k'.
  destruct (inv_run t cs [] [] l os C SS (inv_nil t) R) as [_ I]. specialize (I r O). cbn [app] in I.
  unfold find in I. rewrite L in I.
  destruct (nth_error l k) as [i|] eqn:E.
  2:{ apply lookup_inst_spec in L; auto. destruct L as (_ & X & _). rewrite Nat.sub_0_r, nth_error_map, E in X.
      discriminate. }
  cbn in I. destruct I as (A & P & RT & V & B).
  exists i. repeat split; auto.
  - intros ND. destruct (i_body i); [reflexivity| |].
    + destruct B as [(c & Hc & D) _]. destruct (ND c Hc). eapply defines_as_declares; eauto.
    + destruct B as [(c & Hc & D) _]. destruct (ND c Hc D).
  - intros c id Hc D. destruct (i_body i).
    + destruct B as [B _]. destruct (B c Hc). eapply defines_as_declares; eauto.
    + destruct B as [_ B]. rewrite (B c id Hc D). reflexivity.
    + destruct B as [_ B]. destruct (B c Hc). eapply defines_as_defines; eauto.
Qed.

Lemma run_app : forall t a b l l' os, run t l (a ++ b) = Some (l', os) ->
  exists l1 os1 os2, run t l a = Some (l1, os1) /\ run t l1 b = Some (l', os2) /\ os = os1 ++ os2.
Proof.
  intros t. induction a as [|c a IH]; intros b l l' os R; cbn in R.
  - exists l, [], os. auto.
  - destruct (step t l c) as [[l1 o]|] eqn:S; [|discriminate].
    destruct (run t l1 (a ++ b)) as [[l2 os2]|] eqn:R2; [|discriminate]. injection R as <- <-.
    destruct (IH b l1 l2 os2 R2) as (l3 & os3 & os4 & R3 & R4 & ->).
    exists l3, (o :: os3), os4. cbn. rewrite S, R3. auto.
Qed.

(** C69_late *)
Theorem late_definition : forall t before c after l os,
  Forall complete (before ++ c :: after) -> Forall (same_signature t) (before ++ c :: after) ->
  run t [] (before ++ c :: after) = Some (l, os) ->
  forall r id, defines_as r id c ->
  (forall d, In d before -> ~ defines r d) /\
  ((forall d, In d before -> ~ declares r d) -> forall d, In d before -> ~ uses t r d).
Proof.
  intros t before c after l os C SS R r id D.
  apply Forall_app in C. destruct C as [Cb C]. apply Forall_app in SS. destruct SS as [Sb SS].
  inversion C as [|? ? Cc _]; inversion SS as [|? ? Sc _]; subst.
  destruct (run_app t before (c :: after) [] l os R) as (l1 & os1 & os2 & R1 & R2 & ->).
  destruct (inv_run t before [] [] l1 os1 Cb Sb (inv_nil t) R1) as [OK I]. cbn [app] in I.
  destruct c as [| |a fs ret i|]; cbn in D; try contradiction. destruct D as [<- ->].
  cbn in Cc. apply map_varying in Cc. destruct Sc as [-> ->]. set (r := map set_as_varying a) in *.
  specialize (I r Cc).
  cbn in R2. destruct (define_special t l1 a (inst_params t r) (inst_ret t r) id) as [l2|] eqn:DS; [|discriminate].
  unfold define_special in DS.
  destruct (declare_special t l1 a (inst_params t r) (inst_ret t r)) as [l3|] eqn:DC; [|discriminate].
  unfold declare_special in DC. destruct (negb _); [discriminate|]. fold r in DC.
  destruct (lookup_inst l1 r 0) as [k|] eqn:L.
  - assert (FI : exists j, find l1 r = Some j /\ nth_error l1 k = Some j).
    { unfold find. rewrite L. apply lookup_inst_spec in L; auto. destruct L as (_ & E & _).
      rewrite Nat.sub_0_r, nth_error_map in E. destruct (nth_error l1 k); [eauto | discriminate]. }
    destruct FI as (j & F & N). rewrite N in DC. rewrite F in I. cbn in I. destruct I as (A & P & RT & V & B).
    rewrite P, RT, types_equal_refl, type_equal_refl in DC. cbn [andb] in DC.
    destruct (has_body j) eqn:HB; [discriminate|]. unfold has_body in HB.
    destruct (i_body j); try discriminate. destruct B as [(d & Hd & Dd) B2]. split; [assumption|].
    intros ND. destruct (ND d Hd Dd).
  - assert (F : find l1 r = None) by (apply find_none; assumption). rewrite F in I. destruct I as [I1 I2].
    split; [intros d Hd X; apply (I1 d Hd); apply defines_declares; assumption | auto].
Qed.
