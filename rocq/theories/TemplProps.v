(** C69: function templates. *)
From Coq Require Import ZArith NArith Bool Ascii String Permutation List Lia.
Import ListNotations.
From Verif Require Import TemplModel TemplSpec TemplProofs TemplProofs2 TemplProofs3 TemplProofs4.

Definition ident (s : string) : name := list_ascii_of_string s.
Definition T : name := ident "T".
Definition U : name := ident "U".
Definition N_ : name := ident "N".
Definition tT : ty := Parm Unb false T.
(* two atomic types *)
Definition int_ (v : vr) : ty := Atom v false 7.
Definition float_ (v : vr) : ty := Atom v false 12.
Definition void_ : ty := Atom Uni false 0.
(* template <typename T> T f(T) *)
Definition id_templ : templ := Templ [PType T] [(tT, false)] tT.

(** ** Deduction *)
(** The documented table for one parameter of type T, uniform T or varying T: what T becomes for a uniform and for a varying
    argument, or that there is an error.  The argument is of any type but an array. *)
Theorem C69_table : forall x q a r, ordinary a -> (match a with Arr _ _ => False | _ => True end) ->
  template_args (Templ [PType x] [(Parm q false x, false)] r) [] [a] =
  match documented q (var_of a) with
  | Some v => Match [AType (with_var v (with_const false a))]
  | None => NoMatch
  end.
Proof. exact table. Qed.
Example C69_table_live :
  template_args (Templ [PType T] [(Parm Uni false T, false)] void_) [] [Ptr Uni true (int_ Vry)] =
    Match [AType (Ptr Vry false (int_ Vry))] /\
  template_args (Templ [PType T] [(Parm Uni false T, false)] void_) [] [int_ Vry] = NoMatch.
Proof. split; reflexivity. Qed.

(** If a choice of the template's arguments makes the type of every argument of the call exactly the type of its parameter, the call
    is accepted and that choice is what is deduced, for any number of parameters, each a pointer, a pointer to a pointer and so on to
    T, a reference to such, or T<N>; with any number of template arguments given explicitly.
    _partial: other shapes of parameters, names of counts longer than 15 characters, and a count that is not of type int32; see the
    refutations. *)
Theorem C69_exact_partial : forall t s k args,
  NoDup (map tparam_name (t_parms t)) ->
  (forall x, In (PType x) (t_parms t) -> ordinary (c_type s x)) ->
  (forall y b, In (PNon y b) (t_parms t) -> (0 < c_num s y)%N /\ length y <= 15) ->
  k < length (t_parms t) ->
  Forall2 (fun p a => nothing_left (firstn k (t_parms t)) p a \/ suits t s (firstn k (t_parms t)) p a) (map fst (t_params t)) args ->
  (forall p, In p (skipn k (t_parms t)) -> exists q, In q (map fst (t_params t)) /\ made_of (tparam_name p) q) ->
  template_args t (map (chosen s) (firstn k (t_parms t))) args = Match (map (chosen s) (t_parms t)).
Proof. intros. apply finds_choice; assumption. Qed.
(* template <typename T, typename U, int N> void g(T * uniform, U<N> &, const U &), called with T = uniform float given explicitly *)
Definition g_templ : templ :=
  Templ [PType T; PType U; PNon N_ int32]
    [(Ptr Uni false tT, false); (mk_ref (Vec (Parm Unb false U) (CSym N_)), false); (mk_ref (Parm Unb true U), false)] void_.
Definition g_choice : choice := Choice (fun x => if name_eqb x T then float_ Uni else int_ Vry) (fun _ => 4%N).
Definition g_args : list ty := [Ptr Uni true (float_ Uni); mk_ref (Vec (int_ Vry) (CFix 4)); mk_ref (Atom Vry true 7)].
Example C69_exact_live :
  Forall2 (fun p a => nothing_left (firstn 1 (t_parms g_templ)) p a \/ suits g_templ g_choice (firstn 1 (t_parms g_templ)) p a)
    (map fst (t_params g_templ)) g_args /\
  (forall p, In p (skipn 1 (t_parms g_templ)) -> exists q, In q (map fst (t_params g_templ)) /\ made_of (tparam_name p) q) /\
  template_args g_templ [AType (float_ Uni)] g_args = Match [AType (float_ Uni); AType (int_ Vry); AVal int32 4].
Proof.
  split; [|split; [|reflexivity]].
  - apply Forall2_cons; [|apply Forall2_cons; [|apply Forall2_cons; [|apply Forall2_nil]]].
    + left. split; [cbn; split; discriminate | cbn; auto].
    + right. split; [cbn; split; [discriminate | exact I]|]. split; [reflexivity|]. right. exists U, N_. cbn. unfold type_given, number_given. cbn.
      repeat split; auto; try (intros []; fail).
      * exists int32. auto.
      * intros [H|[]]. discriminate.
      * intros [b [H|[]]]. discriminate.
    + right. split; [cbn; discriminate|]. split; [reflexivity|]. left. exists U, true. cbn. unfold type_given. cbn. repeat split; auto.
  - cbn. intros p [<-|[<-|[]]].
    + eexists. split; [right; left; reflexivity|]. right. exists N_. left. reflexivity.
    + eexists. split; [right; left; reflexivity|]. right. exists U. right. reflexivity.
Qed.

(** Several parameters of the types T, U, ...: a type parameter becomes varying if one of its arguments is varying, and is uniform
    otherwise, when the arguments differ in nothing else... *)
Theorem C69_join : forall B, (forall x, ordinary (B x) /\ is_const (B x) = false) ->
  forall xs (l : list (name * vr)) args r, xs <> [] -> (forall x, In x xs -> exists v, In (x, v) l) ->
  Forall2 (fun p a => snd p <> Unb /\ with_const false (decayed (value_of a)) = with_var (snd p) (B (fst p))) l args ->
  template_args (Templ (map PType xs) (map (fun p => (Parm Unb false (fst p), false)) l) r) [] args =
  Match (map (fun x => AType (with_var (if some_varying x l then Vry else Uni) (B x))) xs).
Proof. intros. apply join; assumption. Qed.
Example C69_join_live :
  template_args (Templ [PType T; PType U] [(tT, false); (Parm Unb false U, false); (tT, false)] void_) []
    [int_ Uni; mk_ref (float_ Uni); int_ Vry] = Match [AType (int_ Vry); AType (float_ Uni)].
Proof. reflexivity. Qed.
(** ...and then the order of the parameters is of no importance. *)
Theorem C69_join_order : forall B, (forall x, ordinary (B x) /\ is_const (B x) = false) ->
  forall xs (l l' : list (name * vr)) args args' r, xs <> [] -> (forall x, In x xs -> exists v, In (x, v) l) -> Permutation l l' ->
  Forall2 (fun p a => snd p <> Unb /\ with_const false (decayed (value_of a)) = with_var (snd p) (B (fst p))) l args ->
  Forall2 (fun p a => snd p <> Unb /\ with_const false (decayed (value_of a)) = with_var (snd p) (B (fst p))) l' args' ->
  template_args (Templ (map PType xs) (map (fun p => (Parm Unb false (fst p), false)) l) r) [] args =
  template_args (Templ (map PType xs) (map (fun p => (Parm Unb false (fst p), false)) l') r) [] args'.
Proof.
  intros B HB xs l l' args args' r NE COV P F F'.
  rewrite (C69_join B HB xs l args r NE COV F), (C69_join B HB xs l' args' r NE).
  - f_equal. apply map_ext. intros x. rewrite (some_varying_perm x l l' P). reflexivity.
  - intros x Hx. destruct (COV x Hx) as [v Hv]. exists v. eapply Permutation_in; eauto.
  - exact F'.
Qed.

(** Arguments given explicitly are never replaced by the deduction, and there is one argument for each parameter. *)
Theorem C69_explicit : forall t ex args r, template_args t ex args = Match r ->
  length ex <= length (t_parms t) /\ firstn (length ex) r = ex /\ length r = length (t_parms t).
Proof. exact explicit_prefix. Qed.

(** A type given without uniform or varying is the varying type. *)
Theorem C69_default : forall t l pre c b u post args,
  step t l (Call (pre ++ AType (Atom Unb c b) :: post) args) = step t l (Call (pre ++ AType (Atom Vry c b) :: post) args) /\
  step t l (Call (pre ++ AType (Ptr Unb c u) :: post) args) = step t l (Call (pre ++ AType (Ptr Vry c u) :: post) args).
Proof. intros. unfold step. split; rewrite !map_app; reflexivity. Qed.

(** ** Instances *)
(** The types of an instance are those of the template with the arguments put in: a keyword before T replaces the variability of T,
    const before T adds const, T alone keeps T; for a reference, the type referred to. *)
Theorem C69_types : forall t s args,
  NoDup (map tparam_name (t_parms t)) -> Forall2 (stands_for s) (t_parms t) args ->
  (forall x, In (PType x) (t_parms t) -> ordinary (c_type s x)) ->
  (forall y b, In (PNon y b) (t_parms t) -> (0 < c_num s y)%N) ->
  Forall2 (fun p i => closed_value (t_parms t) (target p) -> target i = meaning s Vry (target p)) (map fst (t_params t)) (inst_params t args) /\
  (closed_value (t_parms t) (target (t_ret t)) -> target (inst_ret t args) = meaning s Vry (target (t_ret t))).
Proof.
  intros t s args ND F TY CN.
  assert (H : forall p, closed_value (t_parms t) (target p) -> target (resolve_top (init_env (t_parms t) args []) p) = meaning s Vry (target p)).
  { intros p C. pose proof (meaning_value t s args ND F TY CN (target p) Vry C) as M. unfold resolve_top.
    assert (R : is_ref (meaning s Vry (target p)) = false).
    { destruct (target p); cbn in C |- *; try contradiction; auto.
      assert (O : ordinary (keyword v (c_type s x))) by (specialize (TY x C); destruct v; cbn; auto; apply ordinary_with_var; auto; discriminate).
      destruct c; [apply ordinary_with_const with (k := true) in O|]; apply ordinary_ref; assumption. }
    destruct p; cbn [target] in *; try (rewrite M; destruct (meaning s Vry _); cbn in R; [reflexivity..|discriminate|reflexivity|reflexivity]).
    exact M. }
  split; [|apply H]. unfold inst_params. rewrite <- (map_map fst (resolve_top (init_env (t_parms t) args []))).
  induction (map fst (t_params t)); cbn; constructor; auto.
Qed.
Example C69_types_live : Forall2 (stands_for g_choice) (t_parms g_templ) [AType (float_ Uni); AType (int_ Vry); AVal int32 4] /\
  Forall (fun p => closed_value (t_parms g_templ) (target (fst p))) (t_params g_templ).
Proof.
  split; [repeat constructor|]. repeat apply Forall_cons; [| | |apply Forall_nil]; cbn; auto. split; [auto|]. exists int32. auto.
Qed.

(** The program has one instance for each list of template arguments: two calls run the same instance exactly if they have the same
    template arguments, whatever was given explicitly, and whatever specializations and instantiations there are. *)
Theorem C69_same_instance : forall t cs l os, Forall complete cs -> run t [] cs = Some (l, os) ->
  forall m n ex1 a1 ex2 a2, nth_error cs m = Some (Call ex1 a1) -> nth_error cs n = Some (Call ex2 a2) ->
  exists r1 r2 k1 k2,
    template_args t (map normalize ex1) a1 = Match r1 /\ template_args t (map normalize ex2) a2 = Match r2 /\
    nth_error os m = Some (Some k1) /\ nth_error os n = Some (Some k2) /\
    (exists i, nth_error l k1 = Some i /\ i_args i = r1) /\ (k1 = k2 <-> r1 = r2).
Proof. exact same_instance. Qed.

(** A call runs the specialization for its template arguments if there is one, before or after the call, and the template's own
    statements if there is none; the instance has the types the template has for these arguments.
    _partial: all specializations repeat the types of the template; see the refutations. *)
Theorem C69_body_partial : forall t cs l os, Forall complete cs -> Forall (same_signature t) cs -> run t [] cs = Some (l, os) ->
  forall n ex a r k, nth_error cs n = Some (Call ex a) -> template_args t (map normalize ex) a = Match r -> nth_error os n = Some (Some k) ->
  exists i, nth_error l k = Some i /\ i_args i = r /\
    i_params i = inst_params t r /\ i_ret i = inst_ret t r /\ i_llvm i = inst_ret t r /\
    ((forall c, In c cs -> ~ declares r c) -> i_body i = Primary) /\
    (forall c id, In c cs -> defines_as r id c -> i_body i = Special id).
Proof. exact call_body. Qed.
(** What is compiled in the end: in a program without an error every instance that a call runs has statements, and no two instances have
    the same template arguments. *)
Theorem C69_compiled : forall t cs l os, Forall complete cs -> run t [] cs = Some (l, os) -> generate l [] = true ->
  (forall n ex a, nth_error cs n = Some (Call ex a) ->
     exists k i, nth_error os n = Some (Some k) /\ nth_error l k = Some i /\ i_body i <> NoBody) /\
  (forall j k a b, nth_error l j = Some a -> nth_error l k = Some b -> j <> k -> targs_equal (i_args a) (i_args b) = false \/ targs_equal (i_args b) (i_args a) = false).
Proof.
  intros t cs l os C R G.
  assert (Q : forall l done, generate l done = true -> (forall k i, nth_error l k = Some i -> i_body i <> NoBody) /\
    (forall k i d, nth_error l k = Some i -> In d done -> targs_equal (i_args i) (i_args d) = false) /\
    (forall j k a b, nth_error l j = Some a -> nth_error l k = Some b -> (j < k)%nat -> targs_equal (i_args b) (i_args a) = false)).
  { clear. induction l as [|x l IH]; intros done G; cbn in G.
    - repeat split; intros; destruct k; discriminate.
    - apply andb_true_iff in G. destruct G as [G G3]. apply andb_true_iff in G. destruct G as [G1 G2].
      destruct (IH _ G3) as (A & B & D). apply negb_true_iff in G2. repeat split.
      + intros [|k] i E; cbn in E; [|exact (A k i E)]. injection E as <-. unfold has_body in G1. intros H. rewrite H in G1. discriminate.
      + intros [|k] i d E I; cbn in E; [|exact (B k i d E (or_intror I))]. injection E as <-.
        destruct (targs_equal (i_args x) (i_args d)) eqn:T; [|reflexivity]. rewrite <- G2. symmetry. apply existsb_exists. exists d. auto.
      + intros [|j] [|k] a b E1 E2 L; try (cbn in *; lia); cbn in E1, E2.
        * injection E1 as <-. exact (B k b x E2 (or_introl eq_refl)).
        * apply (D j k); auto. lia. }
  destruct (Q l [] G) as (A & _ & D). split.
  - intros n ex a E. destruct (same_instance t cs l os C R n n ex a ex a E E) as (r & _ & k & _ & _ & _ & O & _ & (i & I & _) & _).
    exists k, i. repeat split; auto. exact (A k i I).
  - intros j k a b E1 E2 NE. destruct (Nat.lt_ge_cases j k) as [L|L]; [right; exact (D j k a b E1 E2 L)|left; apply (D k j b a); auto; lia].
Qed.
(** An accepted program has at most one definition of a specialization, and none that comes after a use it was not declared for. *)
Theorem C69_late_partial : forall t before c after l os,
  Forall complete (before ++ c :: after) -> Forall (same_signature t) (before ++ c :: after) ->
  run t [] (before ++ c :: after) = Some (l, os) ->
  forall r id, defines_as r id c ->
  (forall d, In d before -> ~ defines r d) /\
  ((forall d, In d before -> ~ declares r d) -> forall d, In d before -> ~ uses t r d).
Proof. exact late_definition. Qed.
(* a specialization for int that is declared, used and then defined, and a call for float *)
Definition program : list cmd :=
  [Declare [AType (int_ Unb)] [int_ Vry] (int_ Vry); Call [] [int_ Vry]; Call [] [float_ Uni];
   Define [AType (int_ Unb)] [int_ Vry] (int_ Vry) 5; Call [AType (int_ Unb)] [int_ Uni]].
Example C69_program_live : Forall complete program /\ Forall (same_signature id_templ) program /\
  run id_templ [] program =
    Some ([Inst [AType (int_ Vry)] [int_ Vry] (int_ Vry) (int_ Vry) (Special 5);
           Inst [AType (float_ Uni)] [float_ Uni] (float_ Uni) (float_ Uni) Primary],
          [None; Some 0; Some 1; None; Some 0]).
Proof. split; [|split; [|reflexivity]]; repeat constructor; cbn; discriminate. Qed.
Print Assumptions C69_exact_partial.
Print Assumptions C69_join_order.
Print Assumptions C69_types.
Print Assumptions C69_same_instance.
Print Assumptions C69_body_partial.
Print Assumptions C69_late_partial.
Print Assumptions C69_compiled.

(** ** Where it fails *)
(** The deduction compares only the variability when T is already varying and the next argument is uniform: f(T, T) accepts a varying
    int and a uniform float as T = varying int, and rejects the same two arguments in the other order. *)
Theorem C69_base_type_refuted : forall i j, i <> j ->
  let f := Templ [PType T] [(tT, false); (tT, false)] void_ in
  template_args f [] [Atom Vry false i; Atom Uni false j] = Match [AType (Atom Vry false i)] /\
  template_args f [] [Atom Uni false j; Atom Vry false i] = NoMatch.
Proof.
  intros i j H f. split.
  - cbn -[Nat.eqb]. assert (E : Nat.eqb i j = false) by (apply Nat.eqb_neq; congruence). rewrite !E. reflexivity.
  - cbn -[Nat.eqb]. assert (E : Nat.eqb j i = false) by (apply Nat.eqb_neq; congruence). rewrite !E. reflexivity.
Qed.
(** A short vector is deduced only from the parameter T<N> itself: not from T<4>, not from int<N>, not through a pointer, and not when
    T is given explicitly and only N is left. *)
Theorem C69_vector_refuted :
  template_args (Templ [PType T] [(Vec tT (CFix 4), false)] void_) [] [Vec (int_ Vry) (CFix 4)] = NoMatch /\
  template_args (Templ [PNon N_ int32] [(Vec (int_ Vry) (CSym N_), false)] void_) [] [Vec (int_ Vry) (CFix 4)] = NoMatch /\
  template_args (Templ [PType T; PNon N_ int32] [(Ptr Uni false (Vec tT (CSym N_)), false)] void_) [] [Ptr Uni false (Vec (int_ Uni) (CFix 4))] = NoMatch /\
  (let f := Templ [PType T; PNon N_ int32] [(Vec tT (CSym N_), false)] void_ in
   template_args f [] [Vec (int_ Vry) (CFix 4)] = Match [AType (int_ Vry); AVal int32 4] /\
   template_args f [AType (int_ Vry)] [Vec (int_ Vry) (CFix 4)] = NoMatch).
Proof. repeat split. Qed.
(** The length of an array is never deduced, although an instance for it can be asked for explicitly. *)
Theorem C69_array_refuted :
  let f := Templ [PType T; PNon N_ int32] [(mk_ref (Arr tT (CSym N_)), false)] void_ in
  template_args f [] [mk_ref (Arr (int_ Vry) (CFix 4))] = NoMatch /\
  map target (inst_params f [AType (int_ Vry); AVal int32 4]) = [Arr (int_ Vry) (CFix 4)].
Proof. split; reflexivity. Qed.
(** The name of a count is cut to 15 characters before the deduced number is stored under it: with a longer name it is never found. *)
Theorem C69_long_name_refuted : forall y t n, 15 < List.length y -> ordinary t -> is_const t = false ->
  template_args (Templ [PType T; PNon y int32] [(Vec tT (CSym y), false)] void_) [] [Vec t (CFix n)] = NoMatch.
Proof.
  intros y t n L O C. unfold template_args. cbn -[T name_eqb firstn deduce_one build_args].
  unfold deduce_one. cbn -[T name_eqb firstn build_args check_type check_value deduce_param].
  cbn -[T name_eqb firstn build_args]. unfold count_string.
  destruct (name_eqb T (firstn 15 y)) eqn:E.
  - apply name_eqb_true in E. exfalso. apply (f_equal (@List.length ascii)) in E. rewrite firstn_length_le in E by lia. discriminate.
  - cbn -[T name_eqb firstn]. unfold check_value, inst_expr. cbn -[T name_eqb firstn]. rewrite E. cbn -[T name_eqb firstn].
    unfold deduced_arg, inst_type, inst_expr. cbn -[T name_eqb firstn].
    assert (F : name_eqb (firstn 15 y) y = false).
    { destruct (name_eqb (firstn 15 y) y) eqn:F; [|reflexivity]. apply name_eqb_true in F.
      apply (f_equal (@List.length ascii)) in F. rewrite firstn_length_le in F by lia. lia. }
    rewrite F. destruct (name_eqb T y) eqn:G; [apply name_eqb_true in G; subst y; cbn in L; lia|].
    destruct (name_eqb (firstn 15 y) T); [reflexivity|]. rewrite name_eqb_refl. cbn -[T name_eqb].
    destruct (is_dep _); reflexivity.
Qed.
(** A parameter with a default argument whose type depends on T, left out in the call: the types of the arguments are read past their
    end. *)
Theorem C69_default_argument_refuted : template_args (Templ [PType T] [(tT, false); (tT, true)] void_) [] [int_ Vry] = Undefined.
Proof. reflexivity. Qed.
(** A number is accepted for a type parameter, and a type for a number; the instance then has the number's type, or a count that was
    never filled in. *)
Theorem C69_kind_refuted :
  template_args id_templ [AVal int32 3] [int_ Vry] = Match [AVal int32 3] /\ inst_params id_templ [AVal int32 3] = [Atom Uni true 7] /\
  (let f := Templ [PNon N_ int32] [(Vec (int_ Vry) (CSym N_), false)] void_ in
   template_args f [AType (int_ Uni)] [Vec (int_ Vry) (CFix 4)] = Match [AType (int_ Uni)] /\
   inst_params f [AType (int_ Uni)] = [Vec (int_ Vry) (CSym N_)]).
Proof. repeat split. Qed.
(** f<2> and f<2u> are two instances of a template with one parameter int N: a specialization for one is not used for the other. *)
Theorem C69_number_type_refuted : forall b b' : nat, b <> b' ->
  let t := Templ [PNon N_ int32] [] void_ in
  run t [] [Define [AVal b 2] [] void_ 1; Call [AVal b 2] []; Call [AVal b' 2] []] =
  Some ([Inst [AVal b 2] [] void_ void_ (Special 1); Inst [AVal b' 2] [] void_ void_ Primary], [None; Some 0; Some 1]).
Proof.
  intros b b' H t. assert (E : Nat.eqb b b' = false) by (apply Nat.eqb_neq; assumption).
  unfold run, step, define_special, declare_special, call.
  change (match_template t (map set_as_varying [AVal b 2]) []) with true. cbn -[Nat.eqb].
  rewrite !Nat.eqb_refl. cbn -[Nat.eqb]. rewrite ?Nat.eqb_refl. cbn -[Nat.eqb]. rewrite ?E. cbn -[Nat.eqb]. rewrite ?E. reflexivity.
Qed.
(** A specialization with another return type is accepted, also after a call that has used the template's own statements; the llvm
    function keeps the return type of the template. *)
Theorem C69_return_type_refuted :
  run id_templ [] [Call [] [int_ Vry]; Define [AType (int_ Vry)] [int_ Vry] (float_ Vry) 1] =
  Some ([Inst [AType (int_ Vry)] [int_ Vry] (float_ Vry) (int_ Vry) (Special 1)], [Some 0; None]).
Proof. reflexivity. Qed.
(** An explicit instantiation after a call with the same arguments makes a second function of the same name, an error; before the call
    it is accepted. *)
Theorem C69_instantiation_refuted : forall v, v <> Unb ->
  let a := int_ v in
  (exists l os, run id_templ [] [Instantiate [AType a] [a]; Call [] [a]] = Some (l, os) /\ generate l [] = true) /\
  (exists l os, run id_templ [] [Call [] [a]; Instantiate [AType a] [a]] = Some (l, os) /\ generate l [] = false).
Proof.
  intros v H a. destruct v; [congruence| |]; split; do 2 eexists; split; reflexivity.
Qed.
(** A specialization that repeats the types of the instance is rejected if T is const and a parameter is T&, or if a parameter is T**:
    it is compared with the template's types before these are completed. *)
Theorem C69_no_specialization_refuted :
  (let t := Templ [PType T] [(mk_ref tT, false)] void_ in
   let r := [AType (Atom Vry true 7)] in
   inst_params t r = [mk_ref (Atom Vry true 7)] /\ forall id, run t [] [Define r (inst_params t r) (inst_ret t r) id] = None) /\
  (let t := Templ [PType T] [(Ptr Unb false (Ptr Unb false tT), false)] void_ in
   let r := [AType (int_ Vry)] in
   inst_params t r = [Ptr Vry false (Ptr Uni false (int_ Vry))] /\ forall id, run t [] [Define r (inst_params t r) (inst_ret t r) id] = None).
Proof. repeat split. Qed.
(** The reference type of an instance's parameter T*& says neither uniform nor varying, although it refers to a varying pointer. *)
Theorem C69_reference_refuted :
  let t := Templ [PType T] [(mk_ref (Ptr Unb false tT), false)] void_ in
  map var_of (inst_params t [AType (int_ Vry)]) = [Unb] /\ map (fun p => var_of (target p)) (inst_params t [AType (int_ Vry)]) = [Vry].
Proof. split; reflexivity. Qed.
