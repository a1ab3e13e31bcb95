From Coq Require Import Bool Arith Ascii String Lia List.

From Verif Require Import TypesModel TypesProofs2 ScopeModel ScopeSpec.
Import ListNotations.

Lemma name_eqb_refl x : name_eqb x x = true.
Proof. now apply name_eqb_eq. Qed.
Lemma name_eqb_sym x y : name_eqb x y = name_eqb y x.
Proof. destruct (name_eqb x y) eqn:E; symmetry; [apply name_eqb_eq in E; subst; apply name_eqb_refl|].
  destruct (name_eqb y x) eqn:F; [|reflexivity]. apply name_eqb_eq in F. subst. now rewrite name_eqb_refl in E. Qed.

Lemma find_set {A} x y (a : A) m : map_find x (map_set y a m) = if name_eqb x y then Some a else map_find x m.
Proof.
  induction m as [|[z b] m IH]; cbn; [reflexivity|].
  destruct (name_eqb y z) eqn:E; cbn.
  - apply name_eqb_eq in E. subst z. destruct (name_eqb x y); reflexivity.
  - rewrite IH. destruct (name_eqb x z) eqn:F; [|reflexivity]. apply name_eqb_eq in F. subst z.
    rewrite name_eqb_sym, E. reflexivity.
Qed.

(** Effects on the innermost maps *)
Definition addv (m : smap nat) (o : op) : smap nat :=
  match o with Declare x i => match map_find x m with Some _ => m | None => map_set x i m end | _ => m end.
Definition addt (m : smap type_entry) (o : op) : smap type_entry :=
  match o with DeclareType x e => match map_find x m with Some (Defined _) => m | _ => map_set x e m end | _ => m end.

Lemma addv_spec x l : forall m, map_find x (fold_left addv l m) = match map_find x m with Some a => Some a | None => first_declared x l end.
Proof.
  induction l as [|o l IH]; intros m; cbn [fold_left first_declared]; [destruct (map_find x m); reflexivity|].
  rewrite IH. destruct o as [| |y i|y e|y i ft]; cbn [addv]; try reflexivity.
  destruct (map_find y m) eqn:E.
  - destruct (name_eqb x y) eqn:F; [|reflexivity]. apply name_eqb_eq in F. subst. now rewrite E.
  - rewrite find_set. destruct (name_eqb x y) eqn:F; [|reflexivity]. apply name_eqb_eq in F. subst. now rewrite E.
Qed.

Lemma defined_stays x l n : first_defined x (Some (Defined n)) l = Some (Defined n).
Proof. induction l as [|[] l IH]; cbn; auto. destruct (name_eqb x x0); auto. Qed.

Lemma addt_spec x l : forall m, map_find x (fold_left addt l m) = first_defined x (map_find x m) l.
Proof.
  induction l as [|o l IH]; intros m; cbn [fold_left first_defined]; [reflexivity|].
  rewrite IH. destruct o as [| |y i|y e|y i ft]; cbn [addt]; try reflexivity.
  destruct (name_eqb x y) eqn:F.
  - apply name_eqb_eq in F. subst y. destruct (map_find x m) as [[n|n]|] eqn:E.
    + now rewrite find_set, name_eqb_refl.
    + rewrite E. apply defined_stays.
    + now rewrite find_set, name_eqb_refl.
  - destruct (map_find y m) as [[n|n]|] eqn:E; rewrite ?find_set, ?F; reflexivity.
Qed.

Lemma AddVariable_spec x i t m vs : variables t = m :: vs ->
  AddVariable x i t = match map_find x m with
                      | Some _ => (false, t)
                      | None => (true, Table (map_set x i m :: vs) (freeSymbolMaps t) (types t) (functions t))
                      end.
Proof.
  intros E. unfold AddVariable, add_innermost. rewrite E. cbn [shadow_loop].
  destruct (map_find x m); [reflexivity|].
  assert (shadow_loop x false vs = None \/ shadow_loop x false vs = Some false) as [-> | ->]; try reflexivity.
  clear. induction vs as [|m vs IH]; cbn; auto. destruct (map_find x m); auto.
Qed.

Lemma direct_block b : balanced b -> forall d rest, direct (S d) (b ++ rest) = direct (S d) rest.
Proof.
  induction 1; intros d rest; cbn [app direct]; auto.
  rewrite <- app_assoc. cbn [app]. rewrite IHbalanced1. cbn [direct]. rewrite Nat.sub_succ, Nat.sub_0_r. apply IHbalanced2.
Qed.

Lemma run_app h k t : run (h ++ k) t = run k (run h t).
Proof. unfold run. apply fold_left_app. Qed.

Lemma run_balanced b : balanced b -> forall t m vs tm ts, variables t = m :: vs -> types t = tm :: ts ->
  variables (run b t) = fold_left addv (direct 0 b) m :: vs /\ types (run b t) = fold_left addt (direct 0 b) tm :: ts.
Proof.
  induction 1; intros t m vs tm ts V T.
  - split; assumption.
  - change (run (Declare x i :: h) t) with (run h (snd (AddVariable x i t))). cbn [direct fold_left addv addt].
    rewrite (AddVariable_spec x i t m vs V). destruct (map_find x m); cbn [snd]; [now apply IHbalanced|]. apply IHbalanced; [reflexivity|exact T].
  - change (run (DeclareType x e :: h) t) with (run h (snd (AddType x e t))). cbn [direct fold_left addv addt].
    unfold AddType, LookupLocalType. rewrite T. destruct (map_find x tm) as [[n|n]|]; cbn [snd]; [apply IHbalanced; [exact V|reflexivity]|now apply IHbalanced|apply IHbalanced; [exact V|reflexivity]].
  - change (run (DeclareFunction x i ft :: h) t) with (run h (snd (AddFunction x i ft t))). cbn [direct fold_left addv addt].
    unfold AddFunction. destruct (LookupFunction x ft t); cbn [snd]; now apply IHbalanced.
  - cbn [direct]. rewrite direct_block by assumption. cbn [direct]. cbn [Nat.sub].
    change (run (Open :: b ++ Close :: h) t) with (run (b ++ Close :: h) (PushScope t)). rewrite run_app.
    change (run (Close :: h) ?x) with (run h (PopScope x)).
    assert (P : variables (PushScope t) = [] :: m :: vs /\ types (PushScope t) = [] :: tm :: ts).
    { unfold PushScope. destruct (freeSymbolMaps t); cbn; rewrite V, T; auto. }
    destruct P as [P Q]. destruct (IHbalanced1 _ _ _ _ _ P Q) as [P' Q'].
    apply IHbalanced2; unfold PopScope; rewrite P', Q'; reflexivity.
Qed.

Lemma push_heads t : variables (PushScope t) = [] :: variables t /\ types (PushScope t) = [] :: types t.
Proof. unfold PushScope. destruct (freeSymbolMaps t); auto. Qed.

Lemma lookup_block h b x : balanced b ->
  LookupVariable x (run (h ++ Open :: b) initial) =
  match first_declared x (direct 0 b) with Some i => Some i | None => LookupVariable x (run h initial) end.
Proof.
  intros B. rewrite run_app. change (run (Open :: b) ?t) with (run b (PushScope t)). set (t := run h initial).
  destruct (push_heads t) as [V T]. destruct (run_balanced b B _ _ _ _ _ V T) as [V' T'].
  unfold LookupVariable. rewrite V'. cbn [lookup_scopes]. rewrite addv_spec. reflexivity.
Qed.
Lemma lookup_outermost b x : balanced b -> LookupVariable x (run b initial) = first_declared x (direct 0 b).
Proof.
  intros B. assert (V : variables initial = [[]]) by reflexivity. assert (T : types initial = [[]]) by reflexivity.
  destruct (run_balanced b B _ _ _ _ _ V T) as [V' T']. unfold LookupVariable. rewrite V'. cbn [lookup_scopes]. rewrite addv_spec. cbn.
  destruct (first_declared x (direct 0 b)); reflexivity.
Qed.
Lemma type_block h b x : balanced b ->
  LookupType x (run (h ++ Open :: b) initial) =
  match first_defined x None (direct 0 b) with Some i => Some i | None => LookupType x (run h initial) end.
Proof.
  intros B. rewrite run_app. change (run (Open :: b) ?t) with (run b (PushScope t)). set (t := run h initial).
  destruct (push_heads t) as [V T]. destruct (run_balanced b B _ _ _ _ _ V T) as [V' T'].
  unfold LookupType. rewrite T'. cbn [lookup_scopes]. rewrite addt_spec. reflexivity.
Qed.
Lemma type_outermost b x : balanced b -> LookupType x (run b initial) = first_defined x None (direct 0 b).
Proof.
  intros B. assert (V : variables initial = [[]]) by reflexivity. assert (T : types initial = [[]]) by reflexivity.
  destruct (run_balanced b B _ _ _ _ _ V T) as [V' T']. unfold LookupType. rewrite T'. cbn [lookup_scopes]. rewrite addt_spec. cbn.
  destruct (first_defined x None (direct 0 b)); reflexivity.
Qed.

Lemma restored h b : balanced b -> variables (run h initial) <> [] -> 
  variables (run (h ++ Open :: b ++ [Close]) initial) = variables (run h initial) /\
  types (run (h ++ Open :: b ++ [Close]) initial) = types (run h initial).
Proof.
  intros B N. rewrite run_app. change (run (Open :: b ++ [Close]) ?t) with (run (b ++ [Close]) (PushScope t)). set (t := run h initial) in *.
  destruct (push_heads t) as [V T]. destruct (run_balanced b B _ _ _ _ _ V T) as [V' T'].
  rewrite run_app. cbn [run fold_left step]. unfold PopScope. rewrite V', T'. auto.
Qed.

Lemma declared_in l x : (exists i, In (Declare x i) l) <-> first_declared x l <> None.
Proof.
  induction l as [|o l IH]; cbn [first_declared].
  - split; [intros [i []]|congruence].
  - destruct o as [| |y i|y e|y i ft];
      try (rewrite <- IH; split; [intros [j [E|I]]; [discriminate|eauto]|intros [j I]; exists j; now right]).
    destruct (name_eqb x y) eqn:F.
    + apply name_eqb_eq in F. subst. split; [discriminate|]. intros _. exists i. now left.
    + rewrite <- IH. split; [intros [j [E|I]]; [|eauto]|intros [j I]; exists j; now right].
      injection E as -> _. now rewrite name_eqb_refl in F.
Qed.

Lemma redeclared h b x i : balanced b ->
  (fst (AddVariable x i (run (h ++ Open :: b) initial)) = false <-> exists j, In (Declare x j) (direct 0 b)).
Proof.
  intros B. rewrite declared_in. rewrite run_app. change (run (Open :: b) ?t) with (run b (PushScope t)). set (t := run h initial).
  destruct (push_heads t) as [V T]. destruct (run_balanced b B _ _ _ _ _ V T) as [V' T'].
  rewrite (AddVariable_spec x i _ _ _ V'). rewrite addv_spec. cbn [map_find].
  destruct (first_declared x (direct 0 b)); cbn; split; congruence.
Qed.

Lemma functions_spec x h : forall t, LookupFunctions x (run h t) = overloads x (LookupFunctions x t) h.
Proof.
  induction h as [|o h IH]; intros t; [reflexivity|]. change (run (o :: h) t) with (run h (step t o)). rewrite IH.
  destruct o as [| |y i|y e|y i ft]; cbn [overloads step].
  - unfold PushScope. destruct (freeSymbolMaps t); reflexivity.
  - unfold PopScope. destruct (variables t), (types t); reflexivity.
  - unfold AddVariable, add_innermost. destruct (shadow_loop _ _ _) as [[]|]; cbn; try reflexivity; destruct (variables t); reflexivity.
  - unfold AddType. destruct (LookupLocalType y t) as [[]|]; cbn; try reflexivity; destruct (types t); reflexivity.
  - unfold AddFunction. 
    assert (Q : LookupFunction y ft t = option_map fst (find (fun f => equal false (snd f) ft) (LookupFunctions y t))).
    { unfold LookupFunction, LookupFunctions. destruct (map_find y (functions t)); reflexivity. }
    rewrite Q. clear Q.
    assert (E : existsb (fun f => equal false (snd f) ft) (LookupFunctions y t) = match find (fun f => equal false (snd f) ft) (LookupFunctions y t) with Some _ => true | None => false end).
    { clear. induction (LookupFunctions y t) as [|f l IH]; cbn; [reflexivity|]. destruct (equal false (snd f) ft); cbn; auto. }
    destruct (name_eqb x y) eqn:F.
    + apply name_eqb_eq in F. subst y. rewrite E. destruct (find _ _); cbn [option_map snd andb negb]; [reflexivity|].
      unfold LookupFunctions at 1. cbn [functions]. now rewrite find_set, name_eqb_refl.
    + cbn [andb]. destruct (find _ _); cbn [option_map snd]; [reflexivity|].
      unfold LookupFunctions at 1. cbn [functions]. rewrite find_set, F. reflexivity.
Qed.

(** PopInnerScopes *)
Lemma pop_lengths n : forall t, length (variables t) = length (types t) ->
  variables (Nat.iter n PopScope t) = skipn n (variables t) /\ types (Nat.iter n PopScope t) = skipn n (types t) /\
  functions (Nat.iter n PopScope t) = functions t.
Proof.
  induction n; intros t L; [auto|]. change (Nat.iter (S n) PopScope t) with (PopScope (Nat.iter n PopScope t)).
  destruct (IHn t L) as (A & B & C). set (u := Nat.iter n PopScope t) in *. clearbody u. unfold PopScope. rewrite A, B, C.
  assert (X : length (skipn n (variables t)) = length (skipn n (types t))) by (rewrite !skipn_length, L; reflexivity).
  assert (S1 : forall (A : Type) (l : list A) n, skipn (S n) l = tl (skipn n l)).
  { clear. intros A l. induction l; intros [|n]; try reflexivity. cbn [skipn]. apply (IHl n). }
  rewrite !S1. destruct (skipn n (variables t)) as [|v vs], (skipn n (types t)) as [|w us]; cbn in *; try discriminate; auto.
Qed.

Lemma run_nested bs : Forall balanced bs -> forall t, length (variables t) = length (types t) -> exists ms ns,
  variables (run (flat_map (fun b => Open :: b) bs) t) = ms ++ variables t /\
  types (run (flat_map (fun b => Open :: b) bs) t) = ns ++ types t /\ length ms = length bs /\ length ns = length bs.
Proof.
  induction 1 as [|b bs B Bs IH]; intros t L; cbn [flat_map].
  - exists [], []. auto.
  - rewrite run_app. change (run (Open :: b) t) with (run b (PushScope t)).
    destruct (push_heads t) as [V T]. destruct (run_balanced b B _ _ _ _ _ V T) as [V' T'].
    destruct (IH (run b (PushScope t))) as (ms & ns & A & C & D & E); [rewrite V', T'; cbn; congruence|].
    rewrite A, C, V', T'. eexists (ms ++ [_]), (ns ++ [_]). rewrite <- !app_assoc. cbn [app].
    split; [reflexivity|]. split; [reflexivity|]. rewrite !app_length. cbn. split; lia.
Qed.

Lemma back_to_outermost b bs x : balanced b -> Forall balanced bs ->
  LookupVariable x (PopInnerScopes (run (b ++ flat_map (fun b => Open :: b) bs) initial)) = LookupVariable x (run b initial) /\
  LookupType x (PopInnerScopes (run (b ++ flat_map (fun b => Open :: b) bs) initial)) = LookupType x (run b initial).
Proof.
  intros B Bs. rewrite run_app.
  assert (V : variables initial = [[]]) by reflexivity. assert (T : types initial = [[]]) by reflexivity.
  destruct (run_balanced b B _ _ _ _ _ V T) as [V' T'].
  destruct (run_nested bs Bs (run b initial)) as (ms & ns & A & C & D & E); [rewrite V', T'; reflexivity|].
  set (t := run _ (run b initial)) in *. unfold PopInnerScopes.
  assert (LV : length (variables t) = length bs + 1) by (rewrite A, V', app_length, D; reflexivity).
  assert (LT : length (types t) = length bs + 1) by (rewrite C, T', app_length, E; reflexivity).
  destruct (pop_lengths (length (variables t) - 1) t) as (P & Q & _); [lia|].
  unfold LookupVariable, LookupType. rewrite P, Q. rewrite LV, Nat.add_sub. rewrite A, C.
  rewrite <- D at 1. rewrite skipn_app, skipn_all, Nat.sub_diag. rewrite <- E. rewrite skipn_app, skipn_all, Nat.sub_diag. auto.
Qed.

(** ** Edit distance *)

Section Distance.
Variable A : Type.
Variable eqb : A -> A -> bool.
Hypothesis eqb_eq : forall a b, eqb a b = true <-> a = b.

Fixpoint lev (a : list A) : list A -> nat :=
  match a with
  | [] => fun b => length b
  | x :: a' =>
      fix inner (b : list A) : nat :=
        match b with
        | [] => S (length a')
        | y :: b' => Nat.min (lev a' b' + (if eqb x y then 0 else 1)) (Nat.min (inner b') (lev a' b) + 1)
        end
  end.

Lemma lev_nil_r a : lev a [] = length a.
Proof. destruct a; reflexivity. Qed.
Lemma lev_cons x a y b : lev (x :: a) (y :: b) = Nat.min (lev a b + (if eqb x y then 0 else 1)) (Nat.min (lev (x :: a) b) (lev a (y :: b)) + 1).
Proof. reflexivity. Qed.

Lemma lev_edits a : forall b, edits (lev a b) a b.
Proof.
  induction a as [|x a IHa].
  - induction b; cbn; [constructor|]. now constructor.
  - induction b as [|y b IHb].
    + rewrite lev_nil_r. cbn [length]. constructor. rewrite <- (lev_nil_r a). apply IHa.
    + rewrite lev_cons.
      destruct (Nat.min_spec (lev a b + (if eqb x y then 0 else 1)) (Nat.min (lev (x :: a) b) (lev a (y :: b)) + 1)) as [[_ ->]|[_ ->]].
      * destruct (eqb x y) eqn:E.
        -- apply eqb_eq in E. subst. rewrite Nat.add_0_r. constructor. apply IHa.
        -- rewrite Nat.add_1_r. constructor. apply IHa.
      * rewrite Nat.add_1_r. destruct (Nat.min_spec (lev (x :: a) b) (lev a (y :: b))) as [[_ ->]|[_ ->]]; [apply ed_insert; apply IHb|apply ed_delete; apply IHa].
Qed.

Lemma lev_least n a b : edits n a b -> lev a b <= n.
Proof.
  induction 1.
  - cbn. lia.
  - rewrite lev_cons. assert (eqb c c = true) as -> by now apply eqb_eq. lia.
  - rewrite lev_cons. destruct (eqb c d); lia.
  - destruct b as [|y b]; [rewrite lev_nil_r in *; cbn; lia|]. rewrite lev_cons. lia.
  - destruct a as [|x a]; [cbn in *; lia|]. rewrite lev_cons. lia.
Qed.

Lemma distance_lev a b n : distance a b n <-> n = lev a b.
Proof.
  split.
  - intros [E L]. apply Nat.le_antisymm; [apply L, lev_edits|now apply lev_least].
  - intros ->. split; [apply lev_edits|]. intros m. apply lev_least.
Qed.

Lemma edits_app n (a b : list A) m c d : edits n a b -> edits m c d -> edits (n + m) (a ++ c) (b ++ d).
Proof.
  induction 1; intros H1; cbn [app Nat.add]; auto; [apply ed_keep|apply ed_change|apply ed_delete|apply ed_insert]; auto.
Qed.
Lemma edits_rev n (a b : list A) : edits n a b -> edits n (rev a) (rev b).
Proof.
  induction 1; cbn [rev].
  - constructor.
  - rewrite <- (Nat.add_0_r n). apply edits_app; [assumption|]. constructor. constructor.
  - rewrite <- Nat.add_1_r. apply edits_app; [assumption|]. apply ed_change. constructor.
  - rewrite <- (app_nil_r (rev b)). rewrite <- Nat.add_1_r. apply edits_app; [assumption|]. repeat constructor.
  - rewrite <- (app_nil_r (rev a)). rewrite <- Nat.add_1_r. apply edits_app; [assumption|]. repeat constructor.
Qed.
Lemma lev_rev a b : lev (rev a) (rev b) = lev a b.
Proof.
  apply Nat.le_antisymm; apply lev_least.
  - apply edits_rev, lev_edits.
  - rewrite <- (rev_involutive a), <- (rev_involutive b) at 2. 
    pose proof (edits_rev _ _ _ (lev_edits (rev a) (rev b))) as X. rewrite !rev_involutive in X. now rewrite !rev_involutive.
Qed.

(* the row for the (reversed) prefix [ra]: distances to all prefixes of [rev rb ++ b] that are longer than rb *)
Fixpoint row (ra rb b : list A) : list nat :=
  match b with
  | [] => []
  | y :: b => lev ra (y :: rb) :: row ra (y :: rb) b
  end.
End Distance.

Lemma ed_row_spec c ra b : forall rb,
  ed_row c (lev _ Ascii.eqb (c :: ra) rb) (lev _ Ascii.eqb ra rb) (row _ Ascii.eqb ra rb b) b = row _ Ascii.eqb (c :: ra) rb b.
Proof.
  induction b as [|y b IH]; intros rb; [reflexivity|]. cbn [row ed_row].
  rewrite <- lev_cons. f_equal. apply IH.
Qed.

Lemma fold_min_le l : forall n, fold_left Nat.min l n <= n /\ forall x, In x l -> fold_left Nat.min l n <= x.
Proof.
  induction l as [|y l IH]; intros n; cbn [fold_left]; [split; [lia|contradiction]|].
  destruct (IH (Nat.min n y)) as [A B]. split; [lia|]. intros x [<-|I]; [lia|auto].
Qed.
Lemma fold_min_ge l : forall n k, k <= n -> (forall x, In x l -> k <= x) -> k <= fold_left Nat.min l n.
Proof.
  induction l as [|y l IH]; intros n k K H; cbn [fold_left]; [assumption|]. apply IH; [|intros; apply H; now right].
  pose proof (H y (or_introl eq_refl)). lia.
Qed.

(* every entry of a later row is at least the smallest of an earlier one *)
Lemma row_lower k ra b c : forall rb,
  k <= lev _ Ascii.eqb (c :: ra) rb -> k <= lev _ Ascii.eqb ra rb -> (forall x, In x (row _ Ascii.eqb ra rb b) -> k <= x) ->
  forall x, In x (row _ Ascii.eqb (c :: ra) rb b) -> k <= x.
Proof.
  induction b as [|y b IH]; intros rb L1 L2 H x I; cbn [row] in *; [contradiction|].
  assert (K : k <= lev _ Ascii.eqb (c :: ra) (y :: rb)).
  { rewrite lev_cons. pose proof (H _ (or_introl eq_refl)). lia. }
  destruct I as [<-|I]; [exact K|]. apply (IH (y :: rb)); [exact K|apply H; now left| |exact I].
  intros z J. apply H. now right.
Qed.

Lemma last_row ra rb b : b <> [] -> last (row _ Ascii.eqb ra rb b) 0 = lev _ Ascii.eqb ra (rev b ++ rb).
Proof.
  revert rb. induction b as [|y b IH]; intros rb N; [congruence|]. cbn [row rev].
  destruct b as [|z b]; [reflexivity|].
  change (last (lev _ Ascii.eqb ra (y :: rb) :: row _ Ascii.eqb ra (y :: rb) (z :: b)) 0) with (last (row _ Ascii.eqb ra (y :: rb) (z :: b)) 0).
  rewrite IH by discriminate. rewrite <- app_assoc. reflexivity.
Qed.
Lemma last_row' ra b : last (lev _ Ascii.eqb ra [] :: row _ Ascii.eqb ra [] b) 0 = lev _ Ascii.eqb ra (rev b).
Proof.
  destruct b as [|y b]; [reflexivity|].
  change (last (lev _ Ascii.eqb ra [] :: row _ Ascii.eqb ra [] (y :: b)) 0) with (last (row _ Ascii.eqb ra [] (y :: b)) 0).
  rewrite last_row by discriminate. now rewrite app_nil_r.
Qed.

(* the bound holds to the end *)
Lemma lower_end k b a : forall ra, k <= lev _ Ascii.eqb ra [] -> (forall x, In x (row _ Ascii.eqb ra [] b) -> k <= x) ->
  k <= lev _ Ascii.eqb (rev a ++ ra) (rev b).
Proof.
  induction a as [|c a IH]; intros ra L H; cbn [rev app].
  - rewrite <- last_row'. destruct b as [|y b]; [exact L|].
    apply H. change (In (last (row _ Ascii.eqb ra [] (y :: b)) 0) (row _ Ascii.eqb ra [] (y :: b))).
    destruct (@exists_last _ (row _ Ascii.eqb ra [] (y :: b))) as (l & z & E); [discriminate|]. rewrite E, last_last. apply in_or_app. right. now left.
  - rewrite <- app_assoc. cbn [app]. apply IH.
    + rewrite lev_nil_r in *. cbn. lia.
    + apply (row_lower k ra b c); auto. rewrite lev_nil_r in *. cbn. lia.
Qed.

Lemma ed_loop_spec str2 maxDist str1 : forall ra,
  ed_loop (S (length ra)) str1 str2 maxDist (lev _ Ascii.eqb ra [] :: row _ Ascii.eqb ra [] str2) = lev _ Ascii.eqb (rev str1 ++ ra) (rev str2) \/
  (maxDist <> 0 /\ ed_loop (S (length ra)) str1 str2 maxDist (lev _ Ascii.eqb ra [] :: row _ Ascii.eqb ra [] str2) = maxDist + 1 /\
   maxDist < lev _ Ascii.eqb (rev str1 ++ ra) (rev str2)).
Proof.
  induction str1 as [|c str1 IH]; intros ra; cbn [ed_loop].
  - left. apply last_row'.
  - pose proof (ed_row_spec c ra str2 []) as R. rewrite (lev_nil_r _ _ (c :: ra)) in R. cbn [length] in R. rewrite R.
    destruct (negb (Nat.eqb maxDist 0) && Nat.ltb maxDist (fold_left Nat.min (row _ Ascii.eqb (c :: ra) [] str2) (S (length ra)))) eqn:E.
    + right. apply andb_true_iff in E as [E1 E2]. apply negb_true_iff, Nat.eqb_neq in E1. apply Nat.ltb_lt in E2.
      split; [assumption|]. split; [reflexivity|]. cbn [rev]. rewrite <- app_assoc. cbn [app].
      destruct (fold_min_le (row _ Ascii.eqb (c :: ra) [] str2) (S (length ra))) as [B1 B2].
      apply (lower_end (S maxDist)).
      * rewrite lev_nil_r. cbn [length]. lia.
      * intros x I. specialize (B2 x I). lia.
    + specialize (IH (c :: ra)). change (lev ascii Ascii.eqb (c :: ra) []) with (S (length ra)) in IH. cbn [length rev] in *. rewrite <- app_assoc. cbn [app]. exact IH.
Qed.

Lemma first_row str2 : lev _ Ascii.eqb [] [] :: row _ Ascii.eqb [] [] str2 = seq 0 (S (length str2)).
Proof.
  cbn [lev length seq]. f_equal. assert (G : forall b rb, row _ Ascii.eqb [] rb b = seq (S (length rb)) (length b)).
  { induction b; intros rb; cbn; [reflexivity|]. f_equal. apply IHb. }
  apply (G str2 []).
Qed.

Lemma ascii_eqb_eq a b : Ascii.eqb a b = true <-> a = b.
Proof. apply Ascii.eqb_eq. Qed.

Lemma list_eqb_eq a : forall b, list_eqb Ascii.eqb a b = true <-> a = b.
Proof.
  induction a as [|x a IH]; intros [|y b]; cbn; split; try congruence; try discriminate.
  - intros H. apply andb_true_iff in H as [H1 H2]. apply Ascii.eqb_eq in H1. apply IH in H2. congruence.
  - intros [= -> ->]. rewrite Ascii.eqb_refl. cbn. now apply IH.
Qed.

Lemma distance_spec a b maxDist n : a <> b -> distance a b n ->
  (maxDist = 0 \/ n <= maxDist -> StringEditDistance a b maxDist = n) /\
  (maxDist <> 0 -> maxDist < n -> maxDist < StringEditDistance a b maxDist).
Proof.
  intros NE D. apply (distance_lev _ Ascii.eqb ascii_eqb_eq) in D. subst n.
  unfold StringEditDistance. destruct (list_eqb Ascii.eqb a b) eqn:E; [apply list_eqb_eq in E; contradiction|].
  rewrite <- first_row. pose proof (ed_loop_spec b maxDist a []) as H. cbn [length] in H. rewrite app_nil_r in H.
  rewrite (lev_rev _ Ascii.eqb ascii_eqb_eq) in H.
  destruct H as [->|(N & -> & L)]; split; intros; try lia; auto.
Qed.

Lemma edits_same {A} n (a : list A) b : edits n a b -> n = 0 -> a = b.
Proof. induction 1; intros E; try discriminate; auto. f_equal. auto. Qed.

Lemma dist_class str o d : d <= 2 -> (StringEditDistance str o 3 = d <-> str <> o /\ distance str o d).
Proof.
  intros L. split.
  - intros E. assert (NE : str <> o).
    { intros ->. unfold StringEditDistance in E. assert (list_eqb Ascii.eqb o o = true) as Q by now apply list_eqb_eq. rewrite Q in E. lia. }
    split; [assumption|]. assert (D : distance str o (lev _ Ascii.eqb str o)) by now apply (distance_lev _ Ascii.eqb ascii_eqb_eq).
    destruct (distance_spec str o 3 _ NE D) as [A B].
    destruct (Nat.le_gt_cases (lev _ Ascii.eqb str o) 3) as [Q|Q].
    + rewrite A in E by auto. now subst d.
    + specialize (B ltac:(lia) ltac:(lia)). lia.
  - intros [NE D]. destruct (distance_spec str o 3 _ NE D) as [A _]. apply A. lia.
Qed.

Lemma closest_spec str options o :
  In o (closest str options) <->
  In o options /\ exists d, d <= 2 /\ distance str o d /\ o <> str /\ forall p e, In p options -> p <> str -> distance str p e -> d <= e.
Proof.
  set (class d := filter (fun o => Nat.eqb (StringEditDistance str o 3) d) options).
  change (closest str options) with (match class 0 with _ :: _ => class 0 | [] => match class 1 with _ :: _ => class 1 | [] => class 2 end end).
  assert (C : forall d p, d <= 2 -> (In p (class d) <-> In p options /\ str <> p /\ distance str p d)).
  { intros d p L. unfold class. rewrite filter_In, Nat.eqb_eq, dist_class by assumption. tauto. }
  assert (C0 : class 0 = []).
  { destruct (class 0) as [|p l] eqn:E; [reflexivity|]. exfalso. assert (In p (class 0)) as I by (rewrite E; now left).
    apply C in I; [|lia]. destruct I as (_ & NE & [D _]). apply NE. now apply (edits_same 0). }
  assert (Z : forall p e, In p options -> p <> str -> distance str p e -> 1 <= e).
  { intros p e _ NE [D _]. destruct e; [|lia]. apply edits_same in D; congruence. }
  assert (U : forall p d e, distance str p d -> distance str p e -> d = e).
  { intros p d e D E. rewrite (distance_lev _ Ascii.eqb ascii_eqb_eq) in *. congruence. }
  rewrite C0. destruct (class 1) as [|q l] eqn:E1.
  - split.
    + intros I. apply C in I; [|lia]. destruct I as (I & NE & D). split; [assumption|]. exists 2. split; [lia|]. split; [assumption|]. split; [congruence|].
      intros p e J NE' D'. pose proof (Z p e J NE' D'). destruct (Nat.eq_dec e 1); [|lia]. subst. exfalso.
      assert (In p (class 1)) as X by (apply C; [lia|repeat split; auto; apply D']). rewrite E1 in X. contradiction.
    + intros (I & d & L & D & NE & M). apply C; [lia|]. split; [assumption|]. split; [congruence|].
      pose proof (Z o d I NE D). destruct (Nat.eq_dec d 1); [|now replace 2 with d by lia]. subst. exfalso.
      assert (In o (class 1)) as X by (apply C; [lia|repeat split; auto; apply D]). rewrite E1 in X. contradiction.
  - rewrite <- E1. rewrite C by lia. split.
    + intros (I & NE & D). split; [assumption|]. exists 1. split; [lia|]. split; [assumption|]. split; [congruence|]. exact Z.
    + intros (I & d & L & D & NE & M). split; [assumption|]. split; [congruence|].
      assert (In q (class 1)) as X by (rewrite E1; now left). apply C in X; [|lia]. destruct X as (J & NE' & D').
      specialize (M q 1 J ltac:(congruence) D'). pose proof (Z o d I NE D). now replace 1 with d by lia.
Qed.

(** ** The names a table holds *)

Lemma in_map_find {A} x (m : smap A) : In x (map fst m) <-> map_find x m <> None.
Proof.
  induction m as [|[y a] m IH]; cbn; [split; [contradiction|congruence]|].
  destruct (name_eqb x y) eqn:E.
  - apply name_eqb_eq in E. subst. split; [discriminate|auto].
  - rewrite <- IH. split; [intros [->|I]; [now rewrite name_eqb_refl in E|assumption]|auto].
Qed.

Lemma in_scopes {A} x (vs : list (smap A)) : In x (flat_map (map fst) vs) <-> lookup_scopes x vs <> None.
Proof.
  induction vs as [|m vs IH]; cbn; [split; [contradiction|congruence]|].
  rewrite in_app_iff, in_map_find, IH. destruct (map_find x m); split; intros; try congruence; try tauto.
Qed.

Lemma flat_map_rev_in {A B} (f : A -> list B) l x : In x (flat_map f (rev l)) <-> In x (flat_map f l).
Proof. rewrite !in_flat_map. split; intros (y & I & J); exists y; split; auto; [now apply in_rev|now apply in_rev in I]. Qed.

Definition full (m : smap (list (nat * ty))) : Prop := forall x, map_find x m <> Some [].
Lemma full_run h : forall t, full (functions t) -> full (functions (run h t)).
Proof.
  induction h as [|o h IH]; intros t F; [assumption|]. change (run (o :: h) t) with (run h (step t o)). apply IH.
  destruct o as [| |y i|y e|y i ft]; cbn [step].
  - unfold PushScope. destruct (freeSymbolMaps t); assumption.
  - unfold PopScope. destruct (variables t), (types t); assumption.
  - unfold AddVariable, add_innermost. destruct (shadow_loop _ _ _) as [[]|]; cbn; try assumption; destruct (variables t); assumption.
  - unfold AddType. destruct (LookupLocalType y t) as [[]|]; cbn; try assumption; destruct (types t); assumption.
  - unfold AddFunction. destruct (LookupFunction y ft t); cbn; [assumption|]. intros x. rewrite find_set.
    destruct (name_eqb x y); [|apply F]. intros [= E]. now apply app_eq_nil in E as [_ E].
Qed.

Lemma table_names h o : let t := run h initial in
  In o (flat_map (map fst) (rev (variables t)) ++ map fst (functions t)) <-> LookupVariable o t <> None \/ LookupFunctions o t <> [].
Proof.
  intros t. rewrite in_app_iff, flat_map_rev_in, in_scopes, in_map_find. unfold LookupVariable, LookupFunctions.
  assert (F : full (functions t)) by (apply full_run; intros x; cbn; discriminate). specialize (F o).
  destruct (map_find o (functions t)) as [l|]; [|tauto]. destruct l; [congruence|]. split; (intros [H|H]; [now left|right; congruence]).
Qed.

Lemma defined_in l x : forall known,
  (exists k, first_defined x known l = Some (Defined k)) <->
  (exists k, known = Some (Defined k)) \/ (exists k, In (DeclareType x (Defined k)) l).
Proof.
  induction l as [|o l IH]; intros known; cbn [first_defined].
  - split; [auto|]. intros [H|(k & [])]. auto.
  - destruct o as [| |y i|y e|y i ft]; try (rewrite IH; split; intros [H|(k & H)]; eauto; [right; exists k; right; auto|destruct H as [H|H]; [discriminate|eauto]]).
    destruct (name_eqb x y) eqn:E.
    + apply name_eqb_eq in E. subst y. destruct known as [[n|n]|].
      1, 3: rewrite IH; split;
        [intros [(k & H)|(k & H)]; right; exists k; [injection H as ->; left; auto|right; auto]
        |intros [(k & H)|(k & [H|H])]; [discriminate|injection H as ->; eauto|eauto]].
      split; eauto.
    + rewrite IH. split; intros [H|(k & H)]; eauto; [right; exists k; right; auto|].
      destruct H as [H|H]; [|eauto]. injection H as -> _. rewrite name_eqb_refl in E. discriminate.
Qed.

Lemma redefined h b x e : balanced b ->
  (fst (AddType x e (run (h ++ Open :: b) initial)) = false <-> exists k, In (DeclareType x (Defined k)) (direct 0 b)).
Proof.
  intros B. rewrite run_app. change (run (Open :: b) ?t) with (run b (PushScope t)). set (t := run h initial).
  destruct (push_heads t) as [V T]. destruct (run_balanced b B _ _ _ _ _ V T) as [V' T'].
  unfold AddType, LookupLocalType. rewrite T'. rewrite addt_spec. cbn [map_find].
  pose proof (defined_in (direct 0 b) x None) as D. destruct (first_defined x None (direct 0 b)) as [[k|k]|]; cbn [fst].
  1, 3: split; [discriminate|]; intros K; destruct (proj2 D (or_intror K)); discriminate.
  split; [|auto]. intros _. destruct (proj1 D (ex_intro _ k eq_refl)) as [(? & ?)|]; [discriminate|auto].
Qed.

Lemma overloaded h x i ft :
  fst (AddFunction x i ft (run h initial)) = false <->
  exists f, In f (overloads x [] h) /\ equal false (snd f) ft = true.
Proof.
  pose proof (functions_spec x h initial) as F. change (LookupFunctions x initial) with (@nil (nat * ty)) in F. rewrite <- F.
  set (t := run h initial). unfold AddFunction.
  assert (Q : LookupFunction x ft t = option_map fst (find (fun f => equal false (snd f) ft) (LookupFunctions x t))).
  { unfold LookupFunction, LookupFunctions. destruct (map_find x (functions t)); reflexivity. }
  rewrite Q. destruct (find _ _) as [f|] eqn:E; cbn [option_map fst].
  - apply find_some in E. split; eauto.
  - split; [discriminate|]. intros (f & I & Y). rewrite (find_none _ _ E f I) in Y. discriminate.
Qed.

Lemma letters c : is_letter c = true <-> In c (lit "ABCDEFGHIJKLMNOPQRSTUVWXYZabcdefghijklmnopqrstuvwxyz"%string).
Proof.
  assert (E : is_letter c = existsb (Ascii.eqb c) (lit "ABCDEFGHIJKLMNOPQRSTUVWXYZabcdefghijklmnopqrstuvwxyz"%string)).
  { destruct c as [a b c d e f g h]. destruct a, b, c, d, e, f, g, h; reflexivity. }
  rewrite E, existsb_exists. split.
  - intros (x & I & X). apply ascii_eqb_eq in X. subst x. auto.
  - intros I. exists c. split; [auto|]. apply ascii_eqb_eq. auto.
Qed.
