(** Property C74: a declaration means what the C standard and the documentation say it means.  See DeclSpec.v. *)
From Coq Require Import ZArith List Bool Arith Lia Permutation.
From Verif Require Import DeclModel DeclSpec DeclProofs DeclProofs2 DeclProofs3 DeclProofs4.
Import ListNotations.

Lemma empty_wf : wf_env [].
Proof. intros x t H. discriminate. Qed.
Lemma env_wf : forall ds e, typedefs ds [] = Some e -> wf_env e.
Proof. intros ds e H. exact (typedefs_wf ds [] e empty_wf H). Qed.

(** After any typedefs: a variable or function gets a type exactly if its declaration gives a legal type other than void, and it gets that
    type. *)
Theorem C74_declarations_partial : forall ds e l D, typedefs ds [] = Some e -> ok_specs e l -> kept e D ->
  forall s, (exists t, declared e l D = Some t /\ stands_for t s) <-> declares e l D s /\ legal s /\ (forall c, s <> CVoid c).
Proof. intros ds e l D H O K. apply declared_ok; auto. eapply env_wf; eauto. Qed.

(** A typedef, wherever its name is used (a place where things are varying or uniform by default), means what its declaration would mean
    there. *)
Theorem C74_typedefs_partial : forall ds e l D, typedefs ds [] = Some e -> ok_specs e l -> kept e D ->
  forall d s, (exists t, written e l D = Some t /\ completes d t s) <-> legal s /\ exists s' d', reads e D s d s' d' /\ base_is e l d' s'.
Proof. intros ds e l D H O K. apply written_ok; auto. eapply env_wf; eauto. Qed.

(** A declaration gives at most one type. *)
Theorem C74_unique : forall ds e l D s s', typedefs ds [] = Some e -> ok_specs e l -> kept e D ->
  declares e l D s -> legal s -> (forall c, s <> CVoid c) -> declares e l D s' -> legal s' -> (forall c, s' <> CVoid c) -> s = s'.
Proof.
  intros ds e l D s s' H O K D1 L1 V1 D2 L2 V2.
  destruct (proj2 (C74_declarations_partial ds e l D H O K s) (conj D1 (conj L1 V1))) as [t [T1 T2]].
  destruct (proj2 (C74_declarations_partial ds e l D H O K s') (conj D2 (conj L2 V2))) as [t' [T1' T2']].
  rewrite T1 in T1'. inversion T1'; subst t'. clear - T2 T2'. revert s s' T2 T2'.
  induction t using ty_induction; intros s s' A B; inversion A; subst; inversion B; subst; f_equal; auto.
  - destruct v; cbn in *; try contradiction; congruence.
  - destruct v; cbn in *; try contradiction; congruence.
  - match goal with U : Forall2 stands_for ps ?a, V : Forall2 stands_for ps ?b |- ?a = ?b => revert U V; generalize a, b end. clear - H.
    induction H; intros us us0 U V; inversion U; subst; inversion V; subst; f_equal; auto.
Qed.

(** The order of the specifiers does not matter. *)
Theorem C74_specifier_order_partial : forall ds e l l' D, typedefs ds [] = Some e -> Permutation l l' -> ok_specs e l -> ok_specs e l' -> kept e D ->
  forall s, (exists t, declared e l D = Some t /\ stands_for t s) <-> (exists t, declared e l' D = Some t /\ stands_for t s).
Proof.
  intros ds e l l' D H P O O' K s. rewrite (C74_declarations_partial ds e l D H O K), (C74_declarations_partial ds e l' D H O' K).
  split; intros [[s1 [d1 [R B]]] X]; (split; [exists s1, d1; split; [exact R|]|exact X]); [apply (base_perm e l l' d1 s1 P B)|apply (base_perm e l' l d1 s1 (Permutation_sym P) B)].
Qed.

(** A member of a structure means what a variable declared in the same way means, except that its variability may be left open (in a
    uniform structure it is uniform, in a varying one varying: both values of d). *)
Theorem C74_members_partial : forall ds e l a D, typedefs ds [] = Some e -> is_type a = true -> ok_specs e (map SQual l ++ [a]) -> kept e D ->
  (forall t c, spec_type e a = Some (t, c) -> (In QUniform l -> outer t <> Vry) /\ (In QVarying l -> is_void t = false -> outer t <> Uni)) ->
  ~ (In QUniform l /\ In QVarying l) ->
  forall d s, (exists t, member e l a D = Some t /\ completes d t s) <->
    legal s /\ (forall c, s <> CVoid c) /\ exists s' d', reads e D s d s' d' /\ base_is e (map SQual l ++ [a]) d' s'.
Proof. intros ds e l a D H T O K C U. apply member_ok; auto. eapply env_wf; eauto. Qed.

(** Enumerators without a value: 0 for the first, one more than the one before (in 32 bits) for the others. *)
Theorem C74_enumerators : forall l k, enumerator_ok l (enumerators 0 l) k.
Proof. intros l k. unfold enumerator_ok. pose proof (enum_from l 0 k ltac:(lia)) as H. destruct (nth_error l k) as [[v|]|]; exact H. Qed.

(** ** Cases *)
(* typedef float * uniform FP;  const FP ( *f[4])(int, float x[][3]) *)
Definition ex_ds := [(7, [SBuiltin 1], PtrD (Q false true false) [] Id)].
Definition ex_l := [SQual QConst; SName 7].
Definition ex_D := Dir (FunD (Paren (PtrD no_quals [] (ArrD Id 4))) (PNone [SBuiltin 0] (PDecl [SBuiltin 1] (Dir (ArrD (ArrD Id 0) 3)) PNil))).
Definition ex_e := [(7, Ptr Uni false (Atom Unb false 1))].
Example C74_ex1 : typedefs ex_ds [] = Some ex_e /\ ok_specs ex_e ex_l /\ kept ex_e ex_D /\
  declared ex_e ex_l ex_D = Some (Arr 4 (Ptr Vry false (Fun (Ptr Uni true (Atom Uni false 1)) [Atom Vry false 0; Ptr Uni false (Arr 3 (Atom Vry false 1))]))).
Proof.
  assert (K : forall x, ok_specs ex_e [SBuiltin x]).
  { intros x. split; [discriminate|]. split; [reflexivity|]. intros y t [A|[]] _; discriminate. }
  split; [reflexivity|]. split; [|split; [|reflexivity]].
  - split; [discriminate|]. split; [reflexivity|]. intros x t [A|[A|[]]] B; inversion A; subst. cbn in B. inversion B; subst.
    split; [intros c; discriminate|]. split; [intros v u; discriminate|]. right. exists [SQual QConst]. reflexivity.
  - cbn. auto.
Qed.
(* and by the specification *)
Example C74_ex2 : declares ex_e ex_l ex_D
  (CArr 4 (CPtr true false (CFun (CPtr false true (CAtom false false 1)) [CAtom true false 0; CPtr false false (CArr 3 (CAtom true false 1))]))).
Proof.
  refine (proj1 (proj1 (C74_declarations_partial ex_ds ex_e ex_l ex_D eq_refl _ _ _) _)); [apply C74_ex1|apply C74_ex1|].
  eexists. split; [apply C74_ex1|]. repeat (constructor; cbn; auto).
Qed.
Example C74_ex3 : enumerators 0 [None; Some 10%Z; None; None; Some 3%Z] = [0; 10; 11; 12; 3]%Z.
Proof. reflexivity. Qed.
(* struct { const uniform float *p; } *)
Example C74_ex4 : member [] [QConst; QUniform] (SBuiltin 1) (PtrD no_quals [] Id) = Some (Ptr Unb false (Atom Uni true 1)).
Proof. reflexivity. Qed.

(** ** What fails *)
(** In a parameter without a name, the pointers before an array are reduced to one, without its qualifiers: `f(float * uniform [3])` and
    `f(float ** [3])` do not declare what `f(float * uniform p[3])` and `f(float **p[3])` declare. *)
Theorem C74_abstract_refuted :
  (exists l s a t t', declared [] l (Dir (FunD Id (PAbs s a PNil))) = Some t /\ declared [] l (Dir (FunD Id (PDecl s (named a) PNil))) = Some t' /\
     exists q d, a = APtrD q [] d /\ ~ exists u, stands_for t u /\ stands_for t' u) /\
  (exists l s a t t', declared [] l (Dir (FunD Id (PAbs s a PNil))) = Some t /\ declared [] l (Dir (FunD Id (PDecl s (named a) PNil))) = Some t' /\
     exists d, a = APtrD no_quals [no_quals] d /\ ~ exists u, stands_for t u /\ stands_for t' u).
Proof.
  split.
  - exists [SVoid], [SBuiltin 1], (APtrD (Q false true false) [] (AArr 3)). do 2 eexists. split; [reflexivity|]. split; [reflexivity|]. do 2 eexists. split; [reflexivity|].
    intros [u [A B]]. inversion A; subst. inversion B; subst.
    repeat match goal with H : Forall2 _ _ _ |- _ => inversion H; subst; clear H | H : stands_for (Ptr _ _ _) _ |- _ => inversion H; subst; clear H end.
    cbn in *. congruence.
  - exists [SVoid], [SBuiltin 1], (APtrD no_quals [no_quals] (AArr 3)). do 2 eexists. split; [reflexivity|]. split; [reflexivity|]. eexists. split; [reflexivity|].
    intros [u [A B]]. inversion A; subst. inversion B; subst.
    repeat match goal with H : Forall2 _ _ _ |- _ => inversion H; subst; clear H | H : stands_for (Ptr _ _ _) _ |- _ => inversion H; subst; clear H | H : stands_for (Atom _ _ _) _ |- _ => inversion H; subst; clear H end.
Qed.
(** A parameter without a name that is a function, `f(int (float))`, hits an assertion; with a name it is accepted. *)
Theorem C74_function_refuted : exists l s ps t, declared [] l (Dir (FunD Id (PAbs s (ADir (AFun ps)) PNil))) = None /\
  declared [] l (Dir (FunD Id (PDecl s (named (ADir (AFun ps))) PNil))) = Some t.
Proof. exists [SVoid], [SBuiltin 0], (PNone [SBuiltin 1] PNil). eexists. split; reflexivity. Qed.
(** `typedef uniform int UI;`: `const UI x` is uniform, but `UI const x` is varying; `varying UI x` is an error, but `UI varying x` is not; and after
    `typedef int F(int);` the compiler stops at `F const`. *)
Theorem C74_typedef_refuted :
  (exists e, typedefs [(0, [SQual QUniform; SBuiltin 0], Dir Id)] [] = Some e /\
     declared e [SQual QConst; SName 0] (Dir Id) = Some (Atom Uni true 0) /\ declared e [SName 0; SQual QConst] (Dir Id) = Some (Atom Vry true 0) /\
     declared e [SQual QVarying; SName 0] (Dir Id) = None /\ declared e [SName 0; SQual QVarying] (Dir Id) = Some (Atom Vry false 0)) /\
  (exists e t, typedefs [(0, [SBuiltin 0], Dir (FunD Id (PNone [SBuiltin 0] PNil)))] [] = Some e /\
     declared e [SQual QConst; SName 0] (Dir Id) = Some t /\ declared e [SName 0; SQual QConst] (Dir Id) = None).
Proof. split; [eexists|do 2 eexists]; repeat split. Qed.
(** After `typedef void V;` neither V nor void itself can be used any more, not even for the result of a function. *)
Theorem C74_void_refuted : exists e t, typedefs [(0, [SVoid], Dir Id)] [] = Some e /\ declared [] [SVoid] (Dir (FunD Id PNil)) = Some t /\
  (forall D, declared e [SVoid] D = None) /\ (forall D, declared e [SName 0] D = None).
Proof. do 2 eexists. split; [reflexivity|]. split; [reflexivity|]. split; intros; reflexivity. Qed.
(** `uniform varying int x` is an error for a variable, but accepted for a member of a structure. *)
Theorem C74_member_refuted : exists t, member [] [QUniform; QVarying] (SBuiltin 0) (Dir Id) = Some t /\ declared [] [SQual QUniform; SQual QVarying; SBuiltin 0] (Dir Id) = None.
Proof. eexists. split; reflexivity. Qed.

Print Assumptions C74_declarations_partial.
Print Assumptions C74_typedefs_partial.
Print Assumptions C74_unique.
Print Assumptions C74_specifier_order_partial.
Print Assumptions C74_members_partial.
Print Assumptions C74_enumerators.
Print Assumptions C74_abstract_refuted.
Print Assumptions C74_function_refuted.
Print Assumptions C74_typedef_refuted.
Print Assumptions C74_void_refuted.
Print Assumptions C74_member_refuted.
