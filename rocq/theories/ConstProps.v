(** C75: objects declared const are not changed by programs that compile without a warning. *)
From Coq Require Import ZArith List Bool Arith Lia.
Import ListNotations.
From Verif Require Import ConstModel ConstSpec ConstProofs ConstProofs2 ConstProofs3.

Lemma adds_as t u : adds_const t u <-> u = as_const t.
Proof.
  split.
  - induction 1; cbn; congruence.
  - intros ->. induction t; cbn; constructor; auto.
Qed.

(** For every program that the type checker accepts without an error or the warning about discarded const qualifiers: in every state that any
    of its executions reaches, every const scalar -- a const variable, a part of a const array or structure, a const member, wherever it is --
    has the value it was initialised with.  Missing: memset, references to const pointers and to arrays of them, assigning structures that
    hold arrays of structures with const members (see the refutations below); casts. *)
Theorem C75_const_kept_partial : forall P, check_prog P = Some false -> plain_prog P -> forall st, reaches P st -> const_kept (defs P) st.
Proof. intros P H1 H2 st H3. apply reaches_ok; auto. Qed.
Print Assumptions C75_const_kept_partial.

(** "struct S { int a; const int b; };  const int g[2] = { 1, 2 };  S s = { 3, 4 };
     void set(int &r, const int *p) { r = *p; }
     void main() { const int *p = g; p += 1; set(s.a, p); p = &s.b; p = &s.a; ( *(&s)).a = p[0]; }" *)
Definition sample : prog :=
  {| defs := [[TInt false; TInt true]];
     globals := [(TArr 2 (TInt true), [([0], Lit 1); ([1], Lit 2)]); (TStruct false 0, [([0], Lit 3); ([1], Lit 4)])];
     funcs :=
       [{| params := []; ret := TVoid false;
           body := Let (TPtr false (TInt true)) [([], Var 0)]
                     (Seq (Update (Var 2) (Lit 1)) (Seq (Call 1 [Member (Var 1) 0; Var 2])
                       (Seq (Assign (Var 2) (Addr (Member (Var 1) 1))) (Seq (Assign (Var 2) (Addr (Member (Var 1) 0)))
                         (Assign (Member (Deref (Addr (Var 1))) 0) (Index (Var 2) (Lit 0))))))) |};
        {| params := [(true, TInt false); (false, TPtr false (TInt true))]; ret := TVoid false; body := Assign (Var 2) (Deref (Var 3)) |}] |}.
Ltac run :=
  match goal with
  | |- exec _ _ _ _ _ (Seq _ _) _ _ => eapply X_seq; [run | run]
  | |- exec _ _ _ _ _ (Let _ _ _) _ _ => eapply X_let; [reflexivity | run]
  | |- exec _ _ _ _ _ (LetRef _ _ _) _ _ => eapply X_letref; [reflexivity | run]
  | |- exec _ _ _ _ _ (Assign _ _) _ _ => eapply X_assign; reflexivity
  | |- exec _ _ _ _ _ (Update _ _) _ _ => eapply X_move; reflexivity
  | |- exec _ _ _ _ _ (Fill _ _) _ _ => eapply X_fill; reflexivity
  | |- exec _ _ _ _ _ (Call _ _) _ _ => eapply X_call with (o := Next); [reflexivity | reflexivity | cbn [body]; run]
  end.
Example C75_const_kept_satisfiable : check_prog sample = Some false /\ plain_prog sample /\
  exists st, reaches sample st /\ mem st 1 [0] = VInt 2 /\ mem st 0 [1] = VInt 2 /\
    const_at (defs sample) (TArr 2 (TInt true)) [1] /\ const_at (defs sample) (TStruct false 0) [1].
Proof.
  split; [reflexivity | split].
  - split.
    + intros f [<- | [<- | []]]; cbn; split; auto; [intros t [] |]. intros t [H | [H | []]]; inversion H; subst. cbn. auto.
    + intros ms n t [<- | []] [H | [H | []]]; discriminate.
  - eexists; split; [| split; [| split; [| split]]].
    + eexists _, _, _. split; [reflexivity |]. run.
    + reflexivity.
    + reflexivity.
    + constructor; [lia | constructor].
    + eapply CA_member; try reflexivity. constructor.
Qed.

(** Without a warning a pointer is converted to a pointer to another type only by adding const to what it points to (neither of them void). *)
Theorem C75_pointer_conversions : forall c d t u zero, is_void t = false -> is_void u = false ->
  (conv false zero (TPtr c t) (TPtr d u) = Yes <-> u = t \/ adds_const t u).
Proof.
  intros c d t u zero Ht Hu. rewrite adds_as. unfold conv. cbn [is_void orb]. rewrite Ht, Hu. cbn [andb orb].
  destruct (ty_eqb false (TPtr d u) (TPtr c t)) eqn:E.
  - apply ty_eqb_eq in E. inversion E; subst. split; auto.
  - rewrite andb_false_l || idtac. split.
    + destruct (ty_eqb false t u) eqn:E1; [apply ty_eqb_eq in E1; auto |].
      destruct (ty_eqb false (as_const t) u) eqn:E2; [apply ty_eqb_eq in E2; auto |]. cbn. destruct (ty_eqb true t u); discriminate.
    + intros [-> | ->]; rewrite ty_eqb_refl; cbn; auto. rewrite andb_false_r. auto.
Qed.
Print Assumptions C75_pointer_conversions.
Example C75_pointer_conversions_satisfiable :
  conv false false (TPtr false (TPtr false (TInt false))) (TPtr false (TPtr true (TInt false))) = Yes /\
  conv false false (TPtr false (TPtr false (TInt false))) (TPtr false (TPtr false (TInt true))) = Warn /\
  conv false false (TPtr false (TInt true)) (TPtr false (TInt false)) = Warn.
Proof. repeat split. Qed.

(** The warning is needed: a program with it changes a const variable.  "const int k = 1; void main() { int *p = &k; *p = 7; }" *)
Theorem C75_warning_needed : exists P st, check_prog P = Some true /\ plain_prog P /\ reaches P st /\ ~ const_kept (defs P) st.
Proof.
  exists {| defs := []; globals := [(TInt true, [([], Lit 1)])];
            funcs := [{| params := []; ret := TVoid false;
                         body := Let (TPtr false (TInt false)) [([], Addr (Var 0))] (Assign (Deref (Var 1)) (Lit 7)) |}] |}.
  eexists. split; [reflexivity | split; [| split]].
  - split; [intros f [<- | []]; cbn; split; auto; intros t [] | intros ms n t []].
  - eexists _, _, _. split; [reflexivity |]. run.
  - intros H. specialize (H 0 _ _ [] eq_refl). cbn in H. assert (VInt 7 = VInt 1) by (apply H; constructor). discriminate.
Qed.
Print Assumptions C75_warning_needed.

(** A const array can be passed to memset (any parameter of type [void *]): pointers to const are refused there, arrays of const elements
    are not (expr.cpp 259-265).  "const int g[1] = { 1 }; void main() { memset(g, 7, ...); }" compiles without a warning and changes [g]. *)
Theorem C75_array_to_void_refuted : exists P st, check_prog P = Some false /\ reaches P st /\ ~ const_kept (defs P) st.
Proof.
  exists {| defs := []; globals := [(TArr 1 (TInt true), [([0], Lit 1)])];
            funcs := [{| params := []; ret := TVoid false; body := Fill (Var 0) 7 |}] |}.
  eexists. split; [reflexivity | split].
  - eexists _, _, _. split; [reflexivity |]. run.
  - intros H. specialize (H 0 _ _ [0] eq_refl). cbn in H. assert (VInt 7 = VInt 1) by (apply H; constructor; [lia | constructor]). discriminate.
Qed.
Print Assumptions C75_array_to_void_refuted.

(** A reference to an array of const pointers may be bound to an array of pointers to const: only the outermost const is looked at
    (expr.cpp 422-425).  "const int k = 1; void main() { const int *a[1] = { &k }; int * const (&r)[1] = a; *r[0] = 7; }" *)
Theorem C75_reference_refuted : exists P st, check_prog P = Some false /\ reaches P st /\ ~ const_kept (defs P) st.
Proof.
  exists {| defs := []; globals := [(TInt true, [([], Lit 1)])];
            funcs := [{| params := []; ret := TVoid false;
                         body := Let (TArr 1 (TPtr false (TInt true))) [([0], Addr (Var 0))]
                                   (LetRef (TArr 1 (TPtr true (TInt false))) (Var 1) (Assign (Deref (Index (Var 2) (Lit 0))) (Lit 7))) |}] |}.
  eexists. split; [reflexivity | split].
  - eexists _, _, _. split; [reflexivity |]. run.
  - intros H. specialize (H 0 _ _ [] eq_refl). cbn in H. assert (VInt 7 = VInt 1) by (apply H; constructor). discriminate.
Qed.
Print Assumptions C75_reference_refuted.

(** A structure that holds an array of structures with a const member can be assigned: the check for const members does not look into
    arrays (expr.cpp 3524-3553).  "struct A { const int c; }; struct B { A a[1]; }; B x = { { { 1 } } }, y = { { { 2 } } };
    void main() { x = y; }" changes [x.a[0].c]. *)
Theorem C75_struct_assign_refuted : exists P st, check_prog P = Some false /\ reaches P st /\ ~ const_kept (defs P) st.
Proof.
  exists {| defs := [[TInt true]; [TArr 1 (TStruct false 0)]];
            globals := [(TStruct false 1, [([0; 0; 0], Lit 1)]); (TStruct false 1, [([0; 0; 0], Lit 2)])];
            funcs := [{| params := []; ret := TVoid false; body := Assign (Var 0) (Var 1) |}] |}.
  eexists. split; [reflexivity | split].
  - eexists _, _, _. split; [reflexivity |]. run.
  - intros H. specialize (H 0 _ _ [0; 0; 0] eq_refl). cbn in H. assert (VInt 2 = VInt 1); [| discriminate].
    apply H. eapply CA_member; try reflexivity. constructor; [lia |]. eapply CA_member; try reflexivity. constructor.
Qed.
Print Assumptions C75_struct_assign_refuted.

(** A pointer to a structure with a const member converts to [void *]: only a const at the top of the type pointed to is looked at
    (expr.cpp 347-356).  "struct S { const int c; }; S s = { 1 }; void main() { memset(&s, 7, ...); }" *)
Theorem C75_member_to_void_refuted : exists P st, check_prog P = Some false /\ reaches P st /\ ~ const_kept (defs P) st.
Proof.
  exists {| defs := [[TInt true]]; globals := [(TStruct false 0, [([0], Lit 1)])];
            funcs := [{| params := []; ret := TVoid false; body := Fill (Addr (Var 0)) 7 |}] |}.
  eexists. split; [reflexivity | split].
  - eexists _, _, _. split; [reflexivity |]. run.
  - intros H. specialize (H 0 _ _ [0] eq_refl). cbn in H. assert (VInt 7 = VInt 1); [| discriminate].
    apply H. eapply CA_member; try reflexivity. constructor.
Qed.
Print Assumptions C75_member_to_void_refuted.

(** No variable of pointer type can be bound to a reference to that very type: the conversion to a reference is tried only after pointers
    that are not converted to pointers have been refused (expr.cpp 328-336).  "int *p; int *&r = p;" is an error. *)
Theorem C75_pointer_reference_refuted : exists t, conv_ref false t t <> Yes /\ conv_ref true t t = Yes.
Proof. exists (TPtr false (TInt false)). split; [discriminate | reflexivity]. Qed.
Print Assumptions C75_pointer_reference_refuted.
