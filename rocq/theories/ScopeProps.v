(** * C41, C50: names and suggestions *)
From Coq Require Import Bool Arith Ascii String List.
From Verif Require Import TypesModel ScopeModel ScopeSpec ScopeProofs.
Import ListNotations.

(** ** C41 *)

(** After any history [h], in a block that has so far contained [b]: a name means its first declaration
    directly in that block, or else what it meant before the block. *)
Theorem C41_innermost_declaration : forall h b x, balanced b ->
  LookupVariable x (run (h ++ Open :: b) initial) =
  match first_declared x (direct 0 b) with Some i => Some i | None => LookupVariable x (run h initial) end.
Proof. exact lookup_block. Qed.
Print Assumptions C41_innermost_declaration.

Theorem C41_outermost_scope : forall b x, balanced b -> LookupVariable x (run b initial) = first_declared x (direct 0 b).
Proof. exact lookup_outermost. Qed.
Print Assumptions C41_outermost_scope.

(** Types: the definition (or the latest declaration of an undefined struct). *)
Theorem C41_innermost_type : forall h b x, balanced b ->
  LookupType x (run (h ++ Open :: b) initial) =
  match first_defined x None (direct 0 b) with Some i => Some i | None => LookupType x (run h initial) end.
Proof. exact type_block. Qed.
Print Assumptions C41_innermost_type.

(** Leaving a block restores every name. *)
Theorem C41_leaving_a_block_restores : forall h b x, balanced b -> variables (run h initial) <> [] ->
  LookupVariable x (run (h ++ Open :: b ++ [Close]) initial) = LookupVariable x (run h initial) /\
  LookupType x (run (h ++ Open :: b ++ [Close]) initial) = LookupType x (run h initial).
Proof. intros h b x B N. unfold LookupVariable, LookupType. destruct (restored h b B N) as [-> ->]. auto. Qed.
Print Assumptions C41_leaving_a_block_restores.

(** After a syntax error all open blocks are left at once. *)
Theorem C41_leaving_all_blocks : forall b bs x, balanced b -> Forall balanced bs ->
  LookupVariable x (PopInnerScopes (run (b ++ flat_map (fun b => Open :: b) bs) initial)) = LookupVariable x (run b initial) /\
  LookupType x (PopInnerScopes (run (b ++ flat_map (fun b => Open :: b) bs) initial)) = LookupType x (run b initial).
Proof. exact back_to_outermost. Qed.
Print Assumptions C41_leaving_all_blocks.

(** A declaration is refused only if the same block declares the name. *)
Theorem C41_redeclaration : forall h b x i, balanced b ->
  (fst (AddVariable x i (run (h ++ Open :: b) initial)) = false <-> exists j, In (Declare x j) (direct 0 b)).
Proof. exact redeclared. Qed.
Print Assumptions C41_redeclaration.

(** A type is refused only if the same block defines the name, a function only if the name has an overload of that type. *)
Theorem C41_type_redefinition : forall h b x e, balanced b ->
  (fst (AddType x e (run (h ++ Open :: b) initial)) = false <-> exists k, In (DeclareType x (Defined k)) (direct 0 b)).
Proof. exact redefined. Qed.
Print Assumptions C41_type_redefinition.
Theorem C41_function_redeclaration : forall h x i ft,
  fst (AddFunction x i ft (run h initial)) = false <-> exists f, In f (overloads x [] h) /\ equal false (snd f) ft = true.
Proof. exact overloaded. Qed.
Print Assumptions C41_function_redeclaration.

(** Functions are not scoped: every overload declared so far is found, each type once, in order. *)
Theorem C41_overloads : forall h x, LookupFunctions x (run h initial) = overloads x [] h.
Proof. intros h x. now rewrite functions_spec. Qed.
Print Assumptions C41_overloads.

Example C41_ex : let x := lit "x" in let y := lit "y" in let f := lit "f" in
  let b := [Declare y 4; Open; Declare x 5; Declare x 6; Close; Declare x 7] in
  balanced b /\
  LookupVariable x (run ([Declare x 1; Open; Declare x 2] ++ Open :: b) initial) = Some 7 /\
  LookupVariable x (run ([Declare x 1; Open; Declare x 2] ++ Open :: b ++ [Close]) initial) = Some 2 /\
  fst (AddVariable x 8 (run (Open :: b) initial)) = false /\
  LookupType y (run [DeclareType y (Undefined 0); DeclareType y (Defined 1); DeclareType y (Defined 2)] initial) = Some (Defined 1).
Proof.
  split; [|repeat split].
  apply bal_declare. apply (bal_block [Declare _ _; Declare _ _] [Declare _ _]); repeat constructor.
Qed.

(** ** C50 *)

(** The computed distance is the least number of edits, or more than the limit if that is. *)
Theorem C50_edit_distance : forall a b maxDist n, a <> b -> distance a b n ->
  (maxDist = 0 \/ n <= maxDist -> StringEditDistance a b maxDist = n) /\
  (maxDist <> 0 -> maxDist < n -> maxDist < StringEditDistance a b maxDist).
Proof. exact distance_spec. Qed.
Print Assumptions C50_edit_distance.

(** The suggestions for a misspelt name are exactly the declared names nearest to it, at most two edits away. *)
Theorem C50_suggestions : forall h str o, let t := run h initial in
  let declared p := LookupVariable p t <> None \/ LookupFunctions p t <> [] in
  In o (ClosestVariableOrFunctionMatch str t) <->
  declared o /\ exists d, d <= 2 /\ distance str o d /\ o <> str /\ forall p e, declared p -> p <> str -> distance str p e -> d <= e.
Proof.
  intros h str o t declared. unfold ClosestVariableOrFunctionMatch. rewrite closest_spec.
  unfold t at 1 2. rewrite table_names. fold t.
  split; (intros (I & d & L & D & N & M); split; [assumption|]; exists d; repeat split; auto; try apply D; intros p e P; apply M; apply (table_names h p); auto).
Qed.
Print Assumptions C50_suggestions.

(** The same for command-line options and other lists; nothing is suggested for a single character that is no letter. *)
Theorem C50_closest_options : forall str options o,
  let ok := match str with
            | [] => False
            | [c] => In c (lit "ABCDEFGHIJKLMNOPQRSTUVWXYZabcdefghijklmnopqrstuvwxyz"%string)
            | _ => True
            end in
  In o (MatchStrings str options) <->
  ok /\ In o options /\ exists d, d <= 2 /\ distance str o d /\ o <> str /\ forall p e, In p options -> p <> str -> distance str p e -> d <= e.
Proof.
  intros str options o. pose proof (closest_spec str options o) as S0. cbv zeta. rewrite <- S0. unfold MatchStrings.
  destruct str as [|c [|c' str]]; [cbn; tauto| |tauto].
  rewrite <- letters. destruct (is_letter c); [tauto|]. cbn [In]. split; [tauto|]. intros [H _]. discriminate.
Qed.
Print Assumptions C50_closest_options.

Example C50_ex : ClosestVariableOrFunctionMatch (lit "vaule")
    (run [Declare (lit "value") 0; Declare (lit "valued") 1; Declare (lit "vale") 2; Open; Declare (lit "vaule") 3] initial) = [lit "vale"] /\
  StringEditDistance (lit "kitten") (lit "sitting") 0 = 3.
Proof. split; reflexivity. Qed.
