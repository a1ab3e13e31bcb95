(** Property C79: the declarations and definitions of the global names of a file. *)
From Coq Require Import ZArith List Bool Lia.
From Verif Require Import RedeclModel RedeclSpec RedeclProofs RedeclProofs2 RedeclProofs3 RedeclProofs4.
Import ListNotations.
Local Open Scope Z_scope.

(** Files that follow the rules compile. *)
Theorem C79_legal_compiles int h : legal h -> exists s, compile int h = Some s.
Proof. apply legal_compile. Qed.

(** In a file that compiles all declarations of a variable have the same type, extern ones have no
    initializer, and every declared variable exists. *)
Theorem C79_variable_types int h s n d d' : compile int h = Some s ->
  In d (var_decls n h) -> In d' (var_decls n h) ->
  d_type d = d_type d' /\ (d_class d = SExtern -> d_init d = None) /\
  exists g, In g (vars s) /\ g_name g = n /\ g_type g = d_type d.
Proof.
  intros C H H'. destruct (compile_ok _ _ _ C) as (V & _ & -> & _).
  destruct (vs_all _ _ V n) as (g & G1 & G2); [intros X; rewrite X in H; destruct H|].
  destruct (vs_each _ _ V g G1) as [_ _ _ T]. rewrite G2 in T. destruct (T d H) as (T1 & _ & T2), (T d' H') as (T1' & _).
  split; [congruence|]. split; [easy|]. exists g. auto.
Qed.

(** A variable with at most one definition starts with the value of its definition, and one without a definition
    has its storage elsewhere; its value is put in place at compile time only if it is const (missing for the full property: files with two definitions after an extern
    declaration compile, see below). *)
Theorem C79_start_value_partial int h s n g : compile int h = Some s -> In g (vars s) -> g_name g = n ->
  (length (var_defs n h) <= 1)%nat ->
  g_init g = match var_defs n h with d :: _ => Some (start_value d) | [] => None end /\
  (forall v, g_value g = Some v -> g_init g = Some v /\ forall d, In d (var_decls n h) -> const_object d).
Proof.
  intros C G N L. destruct (compile_ok _ _ _ C) as (V & _ & Ev & _). rewrite Ev in G.
  destruct (vs_each _ _ V g G) as [_ (ds & d & E1 & _ & E2) I T]. rewrite N in *.
  split; [rewrite I; now destruct (var_defs n h)|].
  intros v. rewrite E2, I. unfold const_value. intros X.
  assert (D : In d (var_defs n h)).
  { unfold var_defs. rewrite E1. apply filter_In. split; [apply in_or_app; right; now left|]. unfold is_extern.
    destruct (d_class d); [reflexivity|discriminate|reflexivity..]. }
  split.
  2:{ intros d' H'. assert (D' : In d (var_decls n h)) by (unfold var_defs in D; apply filter_In in D; apply D).
      destruct (T d' H') as (T1 & _), (T d D') as (T2 & _). apply is_const_object. rewrite T1, <- T2.
      destruct (d_class d); try discriminate; destruct (is_const (d_type d)); try discriminate; reflexivity. }
  destruct (var_defs n h) as [|d1 [|]]; [destruct D| |cbn in L; lia]. destruct D as [->|[]]. cbn. unfold start_value.
  destruct (d_class d); [| discriminate|..]; (destruct (is_const (d_type d)); [|discriminate]); now rewrite X.
Qed.

(** A second definition is rejected unless the first declaration was extern. *)
Theorem C79_one_definition_partial int h s n d ds : compile int h = Some s -> var_decls n h = d :: ds ->
  d_class d <> SExtern -> ds = [].
Proof.
  intros C H D. destruct (compile_ok _ _ _ C) as (V & _ & Ev & _).
  destruct (vs_all _ _ V n) as (g & G1 & G2); [congruence|].
  destruct (vs_each _ _ V g G1) as [(d0 & ds0 & E1 & _ & _ & E4) _ _ _]. rewrite G2, H in E1. injection E1 as -> ->. auto.
Qed.

(** extern const uniform int a; const uniform int a = 1; const uniform int a = 2; *)
Definition var (n : Z) (c : sclass) (i : option Z) : vdecl :=
  {| d_name := n; d_base := 5; d_own_const := false; d_const := true; d_ptrs := []; d_class := c; d_init := i |}.
Definition twice : list item := [IVar (var 7 SExtern None); IVar (var 7 SNone (Some 1)); IVar (var 7 SNone (Some 2))].

(** The storage class of the first declaration is kept, so that after an extern declaration any number of
    definitions compile; the variable then starts with the value of the first, while the value of the last is
    put in place of it at compile time. *)
Theorem C79_two_definitions_refuted :
  exists h s g, compile true h = Some s /\ In g (vars s) /\ length (var_defs (g_name g) h) = 2%nat /\
    g_init g = Some 1 /\ g_value g = Some 2.
Proof. exists twice. eexists. eexists. split; [reflexivity|]. split; [left; reflexivity|]. repeat split. Qed.

(** A variable is visible to other files if and only if it is not static, when its definition is its first
    declaration. *)
Theorem C79_visibility_partial int h s n g d ds : compile int h = Some s -> In g (vars s) -> g_name g = n ->
  var_decls n h = d :: ds -> d_class d <> SExtern -> (g_internal g = true <-> d_class d = SStatic).
Proof.
  intros C G N H D. destruct (compile_ok _ _ _ C) as (V & _ & Ev & _). rewrite Ev in G.
  destruct (vs_each _ _ V g G) as [(d0 & ds0 & E1 & _ & -> & _) _ _ _]. rewrite N, H in E1. injection E1 as -> ->.
  apply sclass_eqb_spec.
Qed.

(** extern int a; static int a = 1; compiles, and a is visible to other files. *)
Theorem C79_static_variable_refuted :
  exists h s g d, compile true h = Some s /\ In g (vars s) /\ var_defs (g_name g) h = [d] /\ d_class d = SStatic /\
    g_internal g = false.
Proof.
  exists [IVar (var 7 SExtern None); IVar (var 7 SStatic (Some 1))]. eexists. eexists. eexists.
  split; [reflexivity|]. split; [left; reflexivity|]. repeat split.
Qed.

(** A variable that is not a pointer is in read-only memory only if it is const. *)
Theorem C79_read_only_partial int h s n g d : compile int h = Some s -> In g (vars s) -> g_name g = n ->
  In d (var_decls n h) -> d_ptrs d = [] -> g_readonly g = true -> const_object d.
Proof.
  intros C G N H P R. destruct (compile_ok _ _ _ C) as (V & _ & Ev & _). rewrite Ev in G.
  destruct (vs_each _ _ V g G) as [_ (ds & d1 & E1 & E2 & _) _ T]. rewrite N in *.
  assert (D1 : In d1 (var_decls n h)) by (rewrite E1; apply in_or_app; right; now left).
  destruct (T d H) as (T1 & _), (T d1 D1) as (T2 & _). unfold const_object. rewrite P. rewrite E2 in R.
  rewrite <- T2 in T1. unfold d_type in T1. injection T1 as _ T1 _. rewrite R, orb_true_r in T1.
  apply orb_prop in T1. tauto.
Qed.

(** const uniform float * uniform p; declares a pointer that can be assigned to, but the const among the
    specifiers puts the pointer itself into read-only memory. *)
Theorem C79_read_only_pointer_refuted :
  exists h s g d, compile true h = Some s /\ In g (vars s) /\ In d (var_decls (g_name g) h) /\
    ~ const_object d /\ is_const (g_type g) = false /\ g_readonly g = true.
Proof.
  set (p := {| d_name := 7; d_base := 5; d_own_const := false; d_const := true; d_ptrs := [false];
               d_class := SNone; d_init := None |}).
  exists [IVar p]. eexists. eexists. exists p.
  split; [reflexivity|]. split; [left; reflexivity|]. split; [left; reflexivity|]. split; [discriminate|]. split; reflexivity.
Qed.

(** A name is not both a variable and a function. *)
Theorem C79_one_meaning int h s n d f : compile int h = Some s -> In d (var_decls n h) -> In f (fun_decls n h) -> False.
Proof.
  intros C H H'. destruct (compile_ok _ _ _ C) as (V & F & _).
  destruct (vs_all _ _ V n) as (g & G1 & G2); [intros X; rewrite X in H; destruct H|].
  destruct (fo_all _ _ F n f H') as (f' & F1 & F2 & _). apply (fo_disj _ _ F g f' G1 F1). congruence.
Qed.

(** Functions of the same name and parameters are the same function: overloading by the return type or by the
    qualifiers task, export, extern "C" and unmasked only is rejected. *)
Theorem C79_overloads int h s n d d' : compile int h = Some s -> In d (fun_decls n h) -> In d' (fun_decls n h) ->
  f_params (fd_type d) = f_params (fd_type d') -> same_type (fd_type d) (fd_type d').
Proof.
  intros C H H' P. destruct (compile_ok _ _ _ C) as (_ & F & _). destruct (fun_pair _ _ _ _ _ F H H') as [|(X & _)]; [easy|contradiction].
Qed.

(** The name of an exported function has no other function. *)
Theorem C79_export_not_overloaded int h s n d d' : compile int h = Some s -> In d (fun_decls n h) -> In d' (fun_decls n h) ->
  f_kind (fd_type d) = KExport -> same_type (fd_type d) (fd_type d').
Proof.
  intros C H H' K. destruct (compile_ok _ _ _ C) as (_ & F & _). destruct (fun_pair _ _ _ _ _ F H H') as [|(_ & X & _)]; [easy|contradiction].
Qed.

(** Tasks return nothing. *)
Theorem C79_task_void int h s n d : compile int h = Some s -> In d (fun_decls n h) -> f_kind (fd_type d) = KTask ->
  f_ret (fd_type d) = void.
Proof.
  intros C H K. destruct (compile_ok _ _ _ C) as (_ & F & _). destruct (fo_all _ _ F n d H) as (f & F1 & _ & F3 & _ & F4 & _).
  rewrite <- F3. apply (fo_task _ _ F f F1). congruence.
Qed.

(** An extern "C" function cannot be declared where a function of the name exists: of two functions of its name,
    it is the one declared first. *)
Theorem C79_extern_c_partial int h1 h2 s n d b d' : compile int (h1 ++ IFun d b :: h2) = Some s -> fd_name d = n ->
  In d' (fun_decls n h1) -> f_kind (fd_type d) = KExternC ->
  (forall e, In e (fun_decls n h1) -> ~ same_type (fd_type e) (fd_type d)) -> False.
Proof.
  intros C N H' K Nd. unfold compile in C. cbv zeta in C. destruct (err (read (h1 ++ IFun d b :: h2))) eqn:E; [discriminate|]. clear C.
  assert (E1 : err (read (h1 ++ [IFun d b])) = false).
  { replace (h1 ++ IFun d b :: h2) with ((h1 ++ [IFun d b]) ++ h2) in E by (rewrite <- app_assoc; reflexivity).
    clear - E. revert E. induction h2 as [|i h2 IH] using rev_ind; [now rewrite app_nil_r|].
    rewrite app_assoc. intros E. apply IH. now apply read_ok_prefix in E. }
  pose proof (read_ok_prefix _ _ E1) as E0. destruct (read_ok _ E0) as [_ F].
  destruct (fo_all _ _ F n d' H') as (f & F1 & F2 & F3). rewrite read_app in E1.
  assert (Ea : err (add_fun (read h1) d) = false) by (destruct b; cbn in E1; rewrite ?add_body_err in E1; exact E1).
  revert Ea. unfold add_fun. destruct (lookup_var _ _); [discriminate|]. cbv zeta.
  destruct (overloads false (fd_type d) (lookup_funs (fd_name d) (funs (read h1)))) as [e| |e] eqn:O; [|discriminate|].
  - intros _. apply overloads_same in O as (f0 & I0 & S0). apply in_lookup_funs in I0 as [I0 N0].
    destruct (fo_first _ _ F f0 I0) as (d0 & ds & D0 & _). rewrite N0 in D0.
    assert (I1 : In d0 (decls_of (fd_name d) (s_type f0) h1)) by (rewrite D0; now left).
    unfold decls_of in I1. apply filter_In in I1 as [I1 I2]. apply ftype_eqb_spec in I2. rewrite N in I1.
    apply (Nd d0 I1). eapply same_trans; [apply same_sym; exact I2|exact S0].
  - rewrite K. cbn [fkind_eqb andb].
    destruct (lookup_funs (fd_name d) (funs (error_if e (read h1)))) eqn:L; [|discriminate].
    exfalso. assert (X : In f (lookup_funs (fd_name d) (funs (error_if e (read h1))))); [|rewrite L in X; destruct X].
    apply in_lookup_funs. split; [now destruct e|congruence].
Qed.

Definition plain (params : list ty) (k : fkind) (only : bool) : ftype := FT void params k false only.
Definition fdec (n : Z) (t : ftype) (c : sclass) : fdecl := {| fd_name := n; fd_type := t; fd_class := c; fd_inline := false |}.
Definition i32 : ty := Ty 5 false [].
Definition f32 : ty := Ty 8 false [].

(** Documented: it is illegal to overload functions declared with extern "C" linkage.  When the extern "C"
    function comes first, an overload is accepted. *)
Theorem C79_extern_c_overload_refuted :
  exists h s d d', compile true h = Some s /\ In d (fun_decls 7 h) /\ In d' (fun_decls 7 h) /\
    f_kind (fd_type d) = KExternC /\ ~ same_type (fd_type d) (fd_type d').
Proof.
  exists [IFun (fdec 7 (plain [i32] KExternC false) SExternC) None; IFun (fdec 7 (plain [f32] KPlain false) SNone) (Some 1)].
  eexists. do 2 eexists. split; [reflexivity|]. split; [left; reflexivity|]. split; [right; left; reflexivity|].
  split; [reflexivity|]. intros (_ & X & _). discriminate.
Qed.

(** A function for which code is generated for calls from ispc has at most one body, and that is its code, for ispc
    and for the application; it is hidden from other files if its first declaration is static or inline. *)
Theorem C79_one_body_partial int h s f bs : compile int h = Some s -> In f (funs s) ->
  f_external_only (s_type f) = false -> (int = true \/ f_kind (s_type f) <> KExport) ->
  bodies_for (s_name f) (s_type f) h bs ->
  (length bs <= 1)%nat /\ s_code f = hd_error bs /\
  s_app f = (match f_kind (s_type f) with KExport | KExternC => hd_error bs | _ => None end) /\
  exists h1 d b h2, h = h1 ++ IFun d b :: h2 /\ fd_name d = s_name f /\ same_type (s_type f) (fd_type d) /\
    (forall e, In e (fun_decls (s_name f) h1) -> ~ same_type (s_type f) (fd_type e)) /\
    (bs <> [] -> f_kind (s_type f) = KPlain \/ f_kind (s_type f) = KTask ->
     (s_internal f = true <-> fd_class d = SStatic \/ fd_inline d = true)).
Proof.
  intros C Hf X K B. destruct (compile_ok _ _ _ C) as (_ & F & _ & Ef & Ok). rewrite Ef in Hf.
  apply in_map_iff in Hf as (f0 & <- & H0). set (b0 := mine (s_name f0) (s_type f0) (bodies_of h)) in *.
  destruct (run_keeps int b0 f0) as (K1 & K2 & K3 & K4). rewrite K1, K2 in *.
  assert (bs = b0) as -> by (eapply bodies_for_fun; [exact B|apply bodies_for_mine]).
  destruct (fo_new _ _ F f0 H0) as (N1 & N2 & N3).
  assert (S : skips int (s_type f0) = false).
  { unfold skips. rewrite X. cbn. destruct (fkind_eqb (f_kind (s_type f0)) KExport) eqn:Y; [|reflexivity].
    apply fkind_eqb_spec in Y. destruct K as [->|K]; [reflexivity|contradiction]. }
  assert (L : (length b0 <= 1)%nat) by (apply (run_once int f0 b0 N1 S); exact (Ok f0 H0)).
  destruct (fo_first _ _ F f0 H0) as (d0 & ds & D1 & D2 & D3). unfold decls_of in D1.
  apply first_decl in D1 as (h1 & b1 & h2 & P1 & P2 & P3 & P4). split; [exact L|].
  destruct b0 as [|b [|]]; [| |cbn in L; lia].
  - cbn [run fold_left hd_error]. rewrite N1, N2. split; [reflexivity|]. split; [now destruct (f_kind (s_type f0))|].
    exists h1, d0, b1, h2. do 4 (split; [assumption|]). congruence.
  - destruct (run_single int f0 b N1 N2 N3 S) as (R1 & R2 & R3). rewrite R1, R2, R3. cbn [hd_error].
    split; [reflexivity|]. split; [unfold for_app; now destruct (f_kind (s_type f0))|]. exists h1, d0, b1, h2. do 4 (split; [assumption|]).
    intros _ Kp. rewrite D2, D3. unfold for_app.
    destruct Kp as [Kp | Kp]; rewrite Kp; cbn; rewrite andb_true_r, orb_true_iff, sclass_eqb_spec; reflexivity.
Qed.

(** An exported function with the attribute external_only, or compiled with --no-internal-export-functions, has no
    code for ispc, from which a second definition is recognized: the second definition is ignored without an
    error. *)
Theorem C79_two_bodies_refuted :
  exists h s f, compile true h = Some s /\ In f (funs s) /\ bodies_for (s_name f) (s_type f) h [1; 2] /\ s_app f = Some 1.
Proof.
  exists [IFun (fdec 7 (plain [i32] KExport true) SNone) (Some 1); IFun (fdec 7 (plain [i32] KExport true) SNone) (Some 2)].
  eexists. eexists. split; [reflexivity|]. split; [left; reflexivity|]. split; [|reflexivity].
  apply B_body; [reflexivity|apply same_refl|]. apply B_body; [reflexivity|apply same_refl|]. apply B_nil.
Qed.

(** void f(int); static void f(int x) { ... } compiles, and f is visible to other files. *)
Theorem C79_static_function_refuted :
  exists h s f d, compile true h = Some s /\ In f (funs s) /\ In (IFun d (Some 1)) h /\ fd_name d = s_name f /\
    fd_class d = SStatic /\ s_code f = Some 1 /\ s_internal f = false.
Proof.
  exists [IFun (fdec 7 (plain [i32] KPlain false) SNone) None; IFun (fdec 7 (plain [i32] KPlain false) SStatic) (Some 1)].
  eexists. do 2 eexists. split; [reflexivity|]. split; [left; reflexivity|]. split; [right; left; reflexivity|]. repeat split.
Qed.

(** A file that follows the rules. *)
Example C79_legal_file : legal
  [IVar (var 1 SExtern None); IVar (var 1 SNone (Some 4)); IFun (fdec 3 (plain [i32] KPlain false) SStatic) None;
   IFun (fdec 3 (plain [f32] KPlain false) SNone) (Some 10); IFun (fdec 3 (plain [i32] KPlain false) SNone) (Some 11)].
Proof.
  repeat match goal with |- legal ?l => let l' := eval cbn in (removelast l) in
    match l with [] => apply L_nil | _ => let x := eval cbn in (last l (IVar (var 0 SNone None))) in
      change (legal (l' ++ [x])); first [apply L_var | apply L_fun] end end;
  try reflexivity; try discriminate; cbn; intros.
  all: repeat match goal with H : _ \/ _ |- _ => destruct H as [H|H] | H : False |- _ => destruct H
    | H : _ = _ |- _ => discriminate H | H : var _ _ _ = _ |- _ => subst | H : fdec _ _ _ = _ |- _ => subst end; auto.
  all: try (right; repeat split; discriminate). all: try (left; apply same_refl).
  all: try (intros (_ & X & _); injection H0 as <- <-; discriminate X).
Qed.

(** A file with an extern declaration, its definition, two overloads and an exported function. *)
Example C79_file : exists s, compile true
  [IVar (var 1 SExtern None); IVar (var 1 SNone (Some 4)); IVar (var 2 SStatic None);
   IFun (fdec 3 (plain [i32] KPlain false) SStatic) None; IFun (fdec 3 (plain [f32] KPlain false) SNone) (Some 10);
   IFun (fdec 3 (plain [i32] KPlain false) SNone) (Some 11); IFun (fdec 4 (plain [] KExport false) SNone) (Some 12)] = Some s /\
  map g_init (vars s) = [Some 4; Some 0] /\ map g_internal (vars s) = [false; true] /\
  map s_code (funs s) = [Some 11; Some 10; Some 12] /\ map s_internal (funs s) = [true; false; false].
Proof. eexists. split; [reflexivity|]. repeat split. Qed.

Print Assumptions C79_legal_compiles.
Print Assumptions C79_variable_types.
Print Assumptions C79_start_value_partial.
Print Assumptions C79_one_definition_partial.
Print Assumptions C79_two_definitions_refuted.
Print Assumptions C79_visibility_partial.
Print Assumptions C79_static_variable_refuted.
Print Assumptions C79_read_only_partial.
Print Assumptions C79_read_only_pointer_refuted.
Print Assumptions C79_one_meaning.
Print Assumptions C79_overloads.
Print Assumptions C79_export_not_overloaded.
Print Assumptions C79_task_void.
Print Assumptions C79_extern_c_partial.
Print Assumptions C79_extern_c_overload_refuted.
Print Assumptions C79_one_body_partial.
Print Assumptions C79_two_bodies_refuted.
Print Assumptions C79_static_function_refuted.
