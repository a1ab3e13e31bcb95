(** * C32, C33, C34, C48, C49: types, symbols and overloaded functions *)
From Coq Require Import ZArith NArith Bool Ascii String Lia Permutation List.
From Verif Require Import TypesModel TypesSpec TypesProofs TypesProofs2 TypesProofs3 TypesProofs4.
Import ListNotations.

Definition plain : fflags := Flags false false false false false.
Definition vint := Atomic Varying false TInt32.
Definition uint_ := Atomic Uniform false TInt32.
Definition vfloat := Atomic Varying false TFloat.
Definition no_enums (i : nat) : name := [].

(** ** C33: symbols *)

(** Two overloads with the same symbol have the same kind and parameters that differ only in what the
    symbol leaves out ([alike]).  Not covered: struct and enum names that contain "_5D". *)
Theorem C33_same_symbol_partial : forall enum_name f ps qs r r' fl fl' isa,
  Forall (legal enum_name) ps -> Forall (legal enum_name) qs ->
  symbol enum_name f None (Func r ps fl) isa = symbol enum_name f None (Func r' qs fl') isa ->
  f_unmasked fl = f_unmasked fl' /\ Forall2 (alike enum_name) ps qs.
Proof. exact symbol_inj. Qed.
Print Assumptions C33_same_symbol_partial.

(** For parameters without function pointers, constant pointers and address spaces, when enums have
    different names, different parameter lists give different symbols. *)
Theorem C33_overloads_have_different_symbols_partial : forall enum_name f ps qs r r' fl fl' isa,
  Forall (legal enum_name) ps -> Forall (legal enum_name) qs -> Forall ordinary ps -> Forall ordinary qs ->
  (forall i j, enum_name i = enum_name j -> i = j) -> ps <> qs ->
  symbol enum_name f None (Func r ps fl) isa <> symbol enum_name f None (Func r' qs fl') isa.
Proof.
  intros en f ps qs r r' fl fl' isa L1 L2 O1 O2 EI N E. apply symbol_inj in E; auto. destruct E as [_ E].
  now apply N, (ordinary_alike_list en).
Qed.
Print Assumptions C33_overloads_have_different_symbols_partial.

(** Instances of templates of one name. *)
Theorem C33_template_instances_partial : forall enum_name f l m ps qs r r' fl fl' isa,
  Forall (legal enum_name) (map targ_type l) -> Forall (legal enum_name) (map targ_type m) ->
  Forall (legal enum_name) ps -> Forall (legal enum_name) qs ->
  symbol enum_name f (Some l) (Func r ps fl) isa = symbol enum_name f (Some m) (Func r' qs fl') isa ->
  Forall2 (targ_alike enum_name) l m /\ f_unmasked fl = f_unmasked fl' /\ Forall2 (alike enum_name) ps qs.
Proof. exact symbol_template_inj. Qed.
Print Assumptions C33_template_instances_partial.

(** An instance of a template never has the symbol of a function with the template's name. *)
Theorem C33_template_is_not_function : forall enum_name f l ps qs r r' fl fl' isa,
  Forall (legal enum_name) (map targ_type l) -> Forall (legal enum_name) ps -> Forall (legal enum_name) qs ->
  symbol enum_name f (Some l) (Func r ps fl) isa <> symbol enum_name f None (Func r' qs fl') isa.
Proof. exact symbol_template_plain. Qed.
Print Assumptions C33_template_is_not_function.

Example C33_ex : let ps := [vint; Pointer Uniform false false false 0 (Array (Struct Uniform true (lit "P")) 3)] in
  let qs := [vint; Pointer Uniform false false false 0 (Array (Struct Uniform true (lit "Q")) 3)] in
  Forall (legal no_enums) ps /\ Forall (legal no_enums) qs /\ Forall ordinary ps /\ Forall ordinary qs /\
  symbol no_enums (lit "f") None (Func vint ps plain) (Some (lit "avx2")) = lit "f___vyiun_3C_s_5B__c_unP_5D__5B_3_5D__3E__avx2" /\
  symbol no_enums (lit "f") (Some [TType vfloat; TInt uint_ (-12)]) (Func vint [vint] plain) None = lit "f___vyfuni-12___vyi".
Proof. repeat split; try (repeat constructor; cbn; intuition discriminate). Qed.

(** What the symbol leaves out. *)
Theorem C33_function_pointer_result_refuted : forall enum_name f isa,
  let p k := Pointer Uniform false false false 0 (Func k [vint] plain) in
  symbol enum_name f None (Func vint [p vint] plain) isa = symbol enum_name f None (Func vint [p vfloat] plain) isa /\
  equal true (p vint) (p vfloat) = false.
Proof. intros. split; reflexivity. Qed.
Print Assumptions C33_function_pointer_result_refuted.

Theorem C33_constant_pointer_refuted : forall enum_name f isa b,
  let p k := Pointer Uniform k false false 0 b in
  symbol enum_name f None (Func vint [p true] plain) isa = symbol enum_name f None (Func vint [p false] plain) isa /\
  equal false (p true) (p false) = false.
Proof. intros. split; reflexivity. Qed.
Print Assumptions C33_constant_pointer_refuted.

(* an enum without a name has the name "" *)
Theorem C33_unnamed_enums_refuted : forall enum_name f isa i j, enum_name i = [] -> enum_name j = [] -> i <> j ->
  symbol enum_name f None (Func vint [Enum Varying false i] plain) isa = symbol enum_name f None (Func vint [Enum Varying false j] plain) isa /\
  equal true (Enum Varying false i) (Enum Varying false j) = false.
Proof.
  intros en f isa i j A B N. split.
  - unfold symbol. cbn [mangle flat_map]. now rewrite A, B.
  - cbn. apply Nat.eqb_neq in N. now rewrite N.
Qed.
Print Assumptions C33_unnamed_enums_refuted.

(* f(struct A_5D_s_5B_unB) and f(struct A, struct B) *)
Theorem C33_struct_name_refuted : forall enum_name f isa,
  let s n := Struct Uniform false n in
  symbol enum_name f None (Func vint [s (lit "A_5D_s_5B_unB")] plain) isa = symbol enum_name f None (Func vint [s (lit "A"); s (lit "B")] plain) isa.
Proof. reflexivity. Qed.
Print Assumptions C33_struct_name_refuted.

(* f<uniform int>(varying float) and the function f___uni(varying float) *)
Theorem C33_function_named_like_instance_refuted : forall enum_name isa,
  symbol enum_name (lit "f") (Some [TType uint_]) (Func vint [vfloat] plain) isa =
  symbol enum_name (lit "f___uni") None (Func vint [vfloat] plain) isa.
Proof. reflexivity. Qed.
Print Assumptions C33_function_named_like_instance_refuted.

(** ** C48: equality of types *)

Theorem C48_equality_is_an_equivalence : forall ignore_const,
  (forall a, equal ignore_const a a = true) /\
  (forall a b, equal ignore_const a b = equal ignore_const b a) /\
  (forall a b c, equal ignore_const a b = true -> equal ignore_const b c = true -> equal ignore_const a c = true).
Proof.
  intros ic. split; [apply equal_refl|]. split.
  - intros a b. destruct (equal ic a b) eqn:E; [now rewrite (equal_sym_true _ _ _ E)|].
    destruct (equal ic b a) eqn:F; [|reflexivity]. apply equal_sym_true in F. congruence.
  - apply equal_trans_true.
Qed.
Print Assumptions C48_equality_is_an_equivalence.

(** Declarations of one function in two files, whose types are equal, name the same symbol. *)
Theorem C48_equal_functions_link : forall enum_name f targs t u isa, equal false t u = true -> no_soa_pointer t -> no_soa_pointer u ->
  symbol enum_name f targs t isa = symbol enum_name f targs u isa.
Proof. intros en f ta t u isa E A B. unfold symbol. now rewrite (equal_mangle en t u E A B). Qed.
Print Assumptions C48_equal_functions_link.

Example C48_ex : let f k := Func vint [Pointer Varying k false false 0 vfloat; Array uint_ 4] plain in
  equal false (f false) (f false) = true /\ equal true (f true) (f false) = true /\ equal false (f true) (f false) = false /\
  no_soa_pointer (f true).
Proof. repeat split; auto. Qed.

(** ** C32: the common type of two operands *)

Theorem C32_common_type_symmetric_partial : forall force_varying t0 t1, operand t0 -> operand t1 ->
  more_general force_varying t0 t1 = more_general force_varying t1 t0.
Proof. exact more_sym. Qed.
Print Assumptions C32_common_type_symmetric_partial.

Theorem C32_varying_if_an_operand_is_partial : forall force_varying t0 t1 t, operand t0 -> operand t1 ->
  more_general force_varying t0 t1 = Some t ->
  (var_of t = Varying <-> var_of t0 = Varying \/ var_of t1 = Varying \/ force_varying = true) /\
  (var_of t = Uniform \/ var_of t = Varying).
Proof. exact more_var. Qed.
Print Assumptions C32_varying_if_an_operand_is_partial.

(** The documented precedence, except for float16 beside a 32-bit integer. *)
Theorem C32_documented_precedence_partial : forall force_varying t0 t1 t x y, operand t0 -> operand t1 ->
  basic_of t0 = Some x -> basic_of t1 = Some y -> In x documented_precedence -> In y documented_precedence ->
  ~ (x = TFloat16 /\ (y = TInt32 \/ y = TUInt32)) -> ~ (y = TFloat16 /\ (x = TInt32 \/ x = TUInt32)) ->
  more_general force_varying t0 t1 = Some t ->
  basic_of t = Some (if Nat.leb (documented_rank y) (documented_rank x) then x else y) /\
  (forall z, basic_of t = Some z -> bits x <= bits z /\ bits y <= bits z)%nat.
Proof.
  intros fv t0 t1 t x y O0 O1 B0 B1 I J N1 N2 E. rewrite (more_basic fv t0 t1 t x y O0 O1 B0 B1 E). clear E.
  cbn [documented_precedence In] in I, J.
  decompose [or] I; try contradiction; subst; decompose [or] J; try contradiction; subst; try (exfalso; tauto);
    (split; [reflexivity|]); intros z [= <-]; cbn; lia.
Qed.
Print Assumptions C32_documented_precedence_partial.

Example C32_ex : more_general false (Vector (Atomic Uniform true TInt8) 3) (Atomic Varying false TFloat) = Some (Vector (Atomic Varying false TFloat) 3) /\
  more_general false vint (Atomic Uniform true TUInt64) = Some (Atomic Varying true TUInt64).
Proof. split; reflexivity. Qed.

(** int32 + float16 is a float16, not an int32. *)
Theorem C32_float16_precedence_refuted : forall v,
  plain_var v -> more_general false (Atomic v false TInt32) (Atomic v false TFloat16) = Some (Atomic v false TFloat16) /\
  (documented_rank TFloat16 < documented_rank TInt32)%nat /\ (bits TFloat16 < bits TInt32)%nat.
Proof. intros v [->| ->]; (split; [reflexivity|]); cbn; lia. Qed.
Print Assumptions C32_float16_precedence_refuted.

(** An enum (32 bits) and an int8 give an int8. *)
Theorem C32_enum_narrowed_refuted : forall v i, plain_var v ->
  more_general false (Enum v false i) (Atomic v false TInt8) = Some (Atomic v false TInt8).
Proof. intros v i [->| ->]; reflexivity. Qed.
Print Assumptions C32_enum_narrowed_refuted.

(** Pointers to constant and to writable elements: the first operand's type is used. *)
Theorem C32_pointers_not_symmetric_refuted :
  let p c := Pointer Uniform false false false 0 (Atomic Uniform c TInt32) in
  more_general false (p true) (p false) = Some (p true) /\ more_general false (p false) (p true) = Some (p false).
Proof. split; reflexivity. Qed.
Print Assumptions C32_pointers_not_symmetric_refuted.

(** ** C34: overloaded functions *)

(** The order of declarations does not matter, for any costs. *)
Theorem C34_declaration_order_does_not_matter : forall cost explicit funcs funcs' templates templates',
  Permutation funcs funcs' -> Permutation templates templates' ->
  resolve cost explicit funcs templates = resolve cost explicit funcs' templates'.
Proof. intros. now apply resolve_perm. Qed.
Print Assumptions C34_declaration_order_does_not_matter.

(** The chosen one is one of the cheapest. *)
Theorem C34_chosen_is_cheapest : forall cost explicit funcs templates c,
  resolve cost explicit funcs templates = Chosen c -> exists k, cheapest cost (funcs ++ templates) c k.
Proof. exact resolve_chosen. Qed.
Print Assumptions C34_chosen_is_cheapest.

(** Calls with up to 103 arguments, no templates: the only cheapest function is called; two cheapest
    functions are an error; no function is found only when every one needs an impossible conversion. *)
Theorem C34_resolution_partial : forall args explicit funcs, NoDup funcs -> (length args <= 103)%nat ->
  let cands := filter (accepts (length args)) funcs in
  let cost := candidate_cost args in
  (forall c, resolve_call args explicit funcs [] = Chosen c <->
     exists k, cheapest cost cands c k /\ forall d, In d cands -> cost d = Some k -> d = c) /\
  (resolve_call args explicit funcs [] = Ambiguous <-> exists c d k, c <> d /\ cheapest cost cands c k /\ cheapest cost cands d k) /\
  (resolve_call args explicit funcs [] = NoMatch <-> forall c, In c cands -> cost c = None).
Proof.
  intros args e f N L cands cost. apply resolve_plain; [now apply NoDup_filter|].
  intros c k _. now apply candidate_cost_bound.
Qed.
Print Assumptions C34_resolution_partial.

(** For atomic arguments and parameters: a conversion further down the documented list costs more, and
    one that is not in the list is not made.  ([widening_basic] is the compiler's table of conversions
    that do not lose information.) *)
Theorem C34_documented_order_partial : forall n t p q k m s r constant, operand t -> operand p -> operand q ->
  documented_step widening_basic t p = Some s -> documented_step widening_basic t q = Some r ->
  arg_cost n (Arg t false constant) p = Some k -> arg_cost n (Arg t false constant) q = Some m -> (s < r)%nat -> (k < m)%Z.
Proof. exact atomic_order. Qed.
Print Assumptions C34_documented_order_partial.

Theorem C34_atomic_conversions : forall n v c x w d y constant, plain_var v -> plain_var w -> x <> TVoid -> y <> TVoid ->
  (arg_cost n (Arg (Atomic v c x) false constant) (Atomic w d y) = None <-> v = Varying /\ w = Uniform).
Proof.
  intros n v c x w d y k V W X Y. rewrite arg_cost_atomic by assumption. unfold documented_step.
  replace (basic_eqb x TVoid || basic_eqb y TVoid) with false by (destruct x; try congruence; destruct y; try congruence; reflexivity).
  destruct V as [->| ->], W as [->| ->]; split; auto; intros Q; try (destruct Q; discriminate);
    destruct (basic_eqb x y); try destruct (Bool.eqb c d); try destruct (widening_basic x y); discriminate.
Qed.
Print Assumptions C34_atomic_conversions.

(** Integer conversions that keep every value are in the table. *)
Theorem C34_lossless_integers_widen : forall x y lo hi lo' hi', int_range x = Some (lo, hi) -> int_range y = Some (lo', hi') ->
  (lo' <= lo)%Z -> (hi <= hi')%Z -> x <> y -> widening_basic x y = true.
Proof. exact widening_includes. Qed.
Print Assumptions C34_lossless_integers_widen.

Example C34_ex : let f := Cand 0 [vint; vfloat] 0 in let g := Cand 1 [vfloat; vfloat] 0 in let h := Cand 2 [uint_; vfloat; vint] 1 in
  resolve_call [Arg vint false false; Arg vint false false] false [f; g; h] [] = Chosen f /\
  resolve_call [Arg uint_ false false; Arg vfloat false false] false [f; g; h] [] = Chosen h /\
  resolve_call [Arg vint false false; Arg vfloat false true] false [g; Cand 3 [Atomic Varying false TDouble; vfloat] 0] [] = Ambiguous /\
  resolve_call [Arg vint false false] false [f; g; h] [] = NoMatch.
Proof. repeat split. Qed.

(** int8 to uint8 loses the negative values and counts as widening; int32 to double loses nothing and
    does not. *)
Theorem C34_widening_loses_values_refuted :
  widening_basic TInt8 TUInt8 = true /\ widening_basic TInt64 TUInt64 = true /\ widening_basic TInt16 TFloat16 = true /\
  widening_basic TInt32 TDouble = false.
Proof. repeat split. Qed.
Print Assumptions C34_widening_loses_values_refuted.

(** A function that fits exactly and two templates that need a conversion: reported as ambiguous. *)
Theorem C34_exact_function_ambiguous_refuted :
  let f := Cand 0 [vint] 0 in let t k := Cand k [vfloat] 0 in let args := [Arg vint false false] in
  resolve_call args false [f] [t 1; t 2] = Ambiguous /\
  candidate_cost args f = Some 0%Z /\ candidate_cost args (t 1) = Some 65536%Z /\ candidate_cost args (t 2) = Some 65536%Z.
Proof. repeat split. Qed.
Print Assumptions C34_exact_function_ambiguous_refuted.

(** Documented: an exact reference (2) is better than a match up to const (4).  The costs say otherwise. *)
Theorem C34_reference_order_refuted : let args := [Arg vint false false] in
  let by_reference := Cand 0 [Ref 0 vint] 0 in let by_const := Cand 1 [Atomic Varying true TInt32] 0 in
  resolve_call args false [by_reference; by_const] [] = Chosen by_const.
Proof. reflexivity. Qed.
Print Assumptions C34_reference_order_refuted.

(** With 104 arguments the cost passes 2^30, and a function all of whose arguments convert is not found. *)
Theorem C34_many_arguments_refuted :
  let a := Arg (Ref 0 uint_) false false in let f := Cand 0 (repeat vfloat 104) 0 in
  (exists k, arg_cost 104 a vfloat = Some k) /\ (exists k, candidate_cost (repeat a 104) f = Some k) /\
  resolve_call (repeat a 104) false [f] [] = NoMatch.
Proof.
  cbv zeta. split; [eexists; vm_compute; reflexivity|]. split; [eexists; vm_compute; reflexivity|]. vm_compute. reflexivity.
Qed.
Print Assumptions C34_many_arguments_refuted.

(** ** C49: a varying value is never converted to a uniform one *)

Theorem C49_no_varying_to_uniform : forall from to, can_convert from to = true -> is_varying from = true ->
  is_array (ref_target from) && is_pointer to = false -> is_uniform to = false.
Proof. exact can_convert_var. Qed.
Print Assumptions C49_no_varying_to_uniform.

(** In particular not when a function is called. *)
Theorem C49_no_varying_argument_for_uniform_parameter : forall n a p k,
  a_null a = false -> is_varying (a_type a) = true ->
  is_array (ref_target (a_type a)) = false -> is_ref (ref_target (a_type a)) = false ->
  arg_cost n a p = Some k -> is_uniform p = false.
Proof. exact arg_cost_var. Qed.
Print Assumptions C49_no_varying_argument_for_uniform_parameter.

Example C49_ex : can_convert vint vfloat = true /\ can_convert (Ref 0 vint) vfloat = true /\
  can_convert (Pointer Varying false false false 0 vint) (Pointer Varying false false false 0 (Atomic Uniform false TVoid)) = true /\
  can_convert vint uint_ = false /\ can_convert uint_ vint = true /\
  arg_cost 1 (Arg vint false false) (Ref 0 (Atomic Varying true TInt32)) = Some 4096%Z.
Proof. repeat split. Qed.
