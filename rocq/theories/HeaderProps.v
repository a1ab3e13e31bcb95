(** C65, C66: generated headers. *)
From Coq Require Import List Bool Arith Lia.
Import ListNotations.
From Verif Require Import CastModel HeaderModel HeaderSpec HeaderProofs HeaderProofs2 HeaderProofs3.
Local Open Scope nat_scope.

(** * C65: same memory on both sides *)
(** The structure the header declares has the size and alignment it has in ispc, and every member, element and lane has the
    offset and the kind it has in ispc.  _partial: the types plain leaves out (varying enumerations, pointers and vectors as members,
    arrays of structures that are not uniform, structures without members or aligned explicitly); see the refutations. *)
Theorem C65_layout_partial : forall W dtw psize salign valign, abi W dtw psize salign valign ->
  forall v x name al ms, is_bound v -> plain false v (TStruct x name al ms) = true ->
  c_layout psize salign (header W dtw psize salign valign v (TStruct x name al ms)) = layout W dtw psize salign valign v (TStruct x name al ms) /\
  forall p, c_offset psize salign (header W dtw psize salign valign v (TStruct x name al ms)) p = offset W dtw psize salign valign v (TStruct x name al ms) p.
Proof.
  intros W dtw psize salign valign A v x name al ms B P. destruct (main _ _ _ _ _ A (TStruct x name al ms) v B) as (_ & M). destruct (M P) as (M1 & M2).
  unfold member, c_of, aligned_member in M1, M2. cbn [is_struct negb] in M1, M2. rewrite !andb_false_r in M1, M2. cbn [fst snd Nat.max] in M1, M2.
  unfold header. split; [|exact M2]. rewrite <- M1. apply surjective_pairing.
Qed.
Print Assumptions C65_layout_partial.

(** That covers targets with vectors aligned to their size, any gang size that is a power of two, and 32 or 64-bit pointers. *)
Theorem C65_natural_partial : forall j dtw psize salign, In dtw [8; 16; 32; 64] -> psize = 4 \/ psize = 8 ->
  (forall s, 0 < salign s <= ssize psize s) ->
  forall v x name al ms, is_bound v -> plain false v (TStruct x name al ms) = true ->
  c_layout psize salign (header (2 ^ j) dtw psize salign natural v (TStruct x name al ms)) = layout (2 ^ j) dtw psize salign natural v (TStruct x name al ms) /\
  forall p, c_offset psize salign (header (2 ^ j) dtw psize salign natural v (TStruct x name al ms)) p =
            offset (2 ^ j) dtw psize salign natural v (TStruct x name al ms) p.
Proof. intros. apply C65_layout_partial; auto. apply natural_abi; auto. Qed.
Print Assumptions C65_natural_partial.

(** In memory every member, element and lane of any type is inside the type... *)
Theorem C65_inside : forall W dtw psize salign valign, In dtw [8; 16; 32; 64] -> (forall s, 0 < salign s) -> (forall k, 0 < valign k) ->
  forall v t p o s, offset W dtw psize salign valign v t p = Some (o, s) -> o + ssize psize s <= fst (layout W dtw psize salign valign v t).
Proof. intros. eapply layout_inside; eauto. intros. apply mem_count_ge; auto. Qed.
Print Assumptions C65_inside.
(** ...and different ones do not overlap. *)
Theorem C65_apart : forall W dtw psize salign valign, In dtw [8; 16; 32; 64] -> (forall s, 0 < salign s) -> (forall k, 0 < valign k) ->
  forall v t p q o o' s s', offset W dtw psize salign valign v t p = Some (o, s) -> offset W dtw psize salign valign v t q = Some (o', s') -> p <> q ->
  o + ssize psize s <= o' \/ o' + ssize psize s' <= o.
Proof. intros. eapply layout_apart; eauto. intros. apply mem_count_ge; auto. Qed.
Print Assumptions C65_apart.

(** ** Examples and refutations *)
(** Four lanes on x86-64. *)
Definition sa : sc -> nat := ssize 8.
Notation lay := (layout 4 32 8 sa natural).
Notation off := (offset 4 32 8 sa natural).
Notation hlay t := (c_layout 8 sa (header 4 32 8 sa natural Uni t)).
Notation hoff t := (c_offset 8 sa (header 4 32 8 sa natural Uni t)).
Definition u (b : basic) : ty := TScalar Uni (SB b).
Definition vy (b : basic) : ty := TScalar Vary (SB b).
(** struct S { int8 a; float<3> v; struct T { int16 x; varying int8 y; } t[...]; double z; varying float w[2]; }. *)
Definition inner : ty := TStruct Uni 1 0 [u BInt16; TArray 5 (vy BInt8)].
Definition sample : ty := TStruct Uni 2 0 [u BInt8; TVector Uni 3 BFloat; TArray 3 inner; u BDouble; TArray 2 (vy BFloat); TScalar Uni SPtr; TScalar Uni (SEnum 1)].
Example C65_example :
  plain false Uni sample = true /\ (forall s, 0 < sa s <= ssize 8 s) /\ hlay sample = (160, 16) /\
  hoff sample [1; 2] = Some (24, SB BFloat) /\ hoff sample [2; 1; 1; 4; 3] = Some (32 + 24 + 4 + 19, SB BInt8) /\ hoff sample [4; 1; 3] = Some (112 + 28, SB BFloat).
Proof.
  split; [reflexivity|]. split; [intros s; unfold sa; destruct s as [[]|e|]; cbn; lia|]. vm_compute. repeat split; reflexivity.
Qed.

(** A varying enumeration as a member has W times W elements in the header: struct S { varying E e; int32 x; } puts x at 64
    instead of 16 (src/header.cpp 131-139 appends [W] to a declaration which has it already). *)
Theorem C65_varying_enum_refuted :
  let t := TStruct Uni 1 0 [TScalar Vary (SEnum 1); u BInt32] in
  off Uni t [1] = Some (16, SB BInt32) /\ hoff t [1] = Some (64, SB BInt32) /\ fst (lay Uni t) = 32 /\ fst (hlay t) = 80.
Proof. vm_compute. auto. Qed.
Print Assumptions C65_varying_enum_refuted.

(** A varying pointer as a member, of a structure passed by reference, is one pointer in the header. *)
Theorem C65_varying_pointer_refuted :
  let t := TStruct Uni 1 0 [TScalar Vary SPtr; u BInt32] in
  off Uni t [1] = Some (32, SB BInt32) /\ hoff t [1] = Some (8, SB BInt32) /\ off Uni t [0; 1] = Some (8, SPtr) /\ hoff t [0; 1] = None.
Proof. vm_compute. auto. Qed.
Print Assumptions C65_varying_pointer_refuted.

(** A varying float<3> as a member is an array of W vectors of three elements, each padded to four, in the header, and three
    vectors of W elements in ispc: element 1 of lane 0 is elsewhere, and the size is different. *)
Theorem C65_varying_vector_refuted :
  let t := TStruct Uni 1 0 [TVector Vary 3 BFloat] in
  off Uni t [0; 1; 0] = Some (16, SB BFloat) /\ hoff t [0; 0; 1] = Some (4, SB BFloat) /\ fst (lay Uni t) = 48 /\ fst (hlay t) = 64.
Proof. vm_compute. auto. Qed.
Print Assumptions C65_varying_vector_refuted.

(** A short vector in a soa structure is declared float[4]3 v, which is not C. *)
Theorem C65_soa_vector_refuted :
  header 4 32 8 sa natural Uni (TStruct (Soa 4) 1 0 [TVector Unb 3 BFloat]) = CStruct 0 [(0, CBad)].
Proof. reflexivity. Qed.
Print Assumptions C65_soa_vector_refuted.

(** An array of a varying structure as a member is an array of W uniform structures per element: struct T { float x, y; };
    struct S { varying T a[2]; } has lane 1 of a[0].x at 4 in ispc and at 8 in the header. *)
Theorem C65_array_of_varying_refuted :
  let t := TStruct Uni 2 0 [TArray 2 (TStruct Vary 1 0 [TScalar Unb (SB BFloat); TScalar Unb (SB BFloat)])] in
  off Uni t [0; 0; 0; 1] = Some (4, SB BFloat) /\ hoff t [0; 0; 1; 0] = Some (8, SB BFloat) /\
  off Uni t [0; 0; 1; 0] = Some (16, SB BFloat) /\ hoff t [0; 0; 0; 1] = Some (4, SB BFloat) /\ lay Uni t = (64, 16) /\ hlay t = (64, 16).
Proof. vm_compute. repeat split; reflexivity. Qed.
Print Assumptions C65_array_of_varying_refuted.

(** An explicit alignment is in the header only: struct T { int32 x; } aligned to 16 has four bytes in ispc and sixteen in the
    header, so elements of an array and members after it are elsewhere. *)
Theorem C65_aligned_refuted :
  let t := TStruct Uni 1 16 [u BInt32] in let s := TStruct Uni 2 0 [TArray 3 t; u BInt32] in
  fst (lay Uni t) = 4 /\ fst (hlay t) = 16 /\ off Uni s [0; 1; 0] = Some (4, SB BInt32) /\ hoff s [0; 1; 0] = Some (16, SB BInt32) /\
  off Uni s [1] = Some (12, SB BInt32) /\ hoff s [1] = Some (48, SB BInt32).
Proof. vm_compute. repeat split; reflexivity. Qed.
Print Assumptions C65_aligned_refuted.

(** A structure without members takes a byte in ispc and none in C: what follows is elsewhere. *)
Theorem C65_empty_refuted :
  let t := TStruct Uni 2 0 [TStruct Uni 1 0 []; u BInt8] in
  off Uni t [1] = Some (1, SB BInt8) /\ hoff t [1] = Some (0, SB BInt8).
Proof. vm_compute. auto. Qed.
Print Assumptions C65_empty_refuted.

(** On 32-bit ARM, where vectors of 16 bytes are aligned to 8, float<2> takes 16 bytes in ispc and 8 in the header
    (src/header.cpp 288-302: the declaration has the alignment, not the size of the padded vector). *)
Theorem C65_arm_refuted :
  let t := TStruct Uni 1 0 [TVector Uni 2 BFloat; u BInt32] in
  (forall k, 0 < arm32 k) /\ offset 4 32 4 (ssize 4) arm32 Uni t [1] = Some (16, SB BInt32) /\
  c_offset 4 (ssize 4) (header 4 32 4 (ssize 4) arm32 Uni t) [1] = Some (8, SB BInt32).
Proof.
  split; [intros k; unfold arm32; destruct (k =? 16); [lia|apply pow_pos]|]. vm_compute. auto.
Qed.
Print Assumptions C65_arm_refuted.

(** The layout of a uniform structure depends on the target: with several targets in one compilation, there is one header, and a
    float<3> takes 16 bytes for a target of 32-bit elements and 64 for one of 8-bit elements. *)
Theorem C65_targets_refuted :
  let t := TStruct Uni 1 0 [TVector Uni 3 BFloat; u BInt32] in
  layout 4 32 8 sa natural Uni t = (32, 16) /\ layout 16 8 8 sa natural Uni t = (128, 64).
Proof. vm_compute. auto. Qed.
Print Assumptions C65_targets_refuted.

(** * C66: declared before use *)
(** fs: types of functions, es: types exported explicitly.  What the preprocessor leaves of the header defines every type
    before a structure with a member of it.  _partial: no soa structures, no arrays of varying structures, only
    uniform vectors, and the vectors and enumerations in explicitly exported structures appear in functions; see the refutations. *)
Theorem C66_in_order_partial : forall fs es, (forall t, In t (fs ++ map as_uniform es) -> uniform_arrays false Uni t = true /\ no_soa Uni t = true) ->
  (forall t, In t fs -> uniform_vectors_only Uni t = true) ->
  (forall t, In t (map as_uniform es) -> is_struct t = true ->
     (forall e, In e (enums Uni t) -> In e (flat_map (enums Uni) fs)) /\ (forall d, In d (vectors Uni t) -> In d (flat_map (vectors Uni) fs))) ->
  in_order (fst (write_header fs es)) (preprocess [] (snd (write_header fs es))).
Proof.
  intros fs es H V X. set (first := fst (write_header fs es)).
  assert (D1 : forall e, In e (flat_map (enums Uni) fs) -> In (IEnum e) first).
  { intros e E. unfold first, write_header. cbn [fst]. apply in_or_app. right. apply dedup_in. apply in_or_app. left. apply in_map. auto. }
  assert (D2 : forall x n b, In (x, n, b) (flat_map (vectors Uni) fs) -> In (IVec n b) first).
  { intros x n b E. unfold first, write_header. cbn [fst]. apply in_or_app. left. apply dedup_in. apply in_or_app. left. unfold uniform_vectors.
    apply in_flat_map in E as (t & T & E). assert (x = Uni) by (eapply uniform_vectors_in; eauto). subst x.
    apply in_flat_map. exists (Uni, n, b). split; [apply in_flat_map; eauto|left; auto]. }
  set (ts := flat_map (structs Uni) fs ++ map as_uniform (filter is_exported_struct es)).
  assert (T : forall t, In t ts -> uniform_arrays false Uni t = true /\ no_soa Uni t = true /\ declares first Uni t).
  { intros t I0. apply in_app_or in I0 as [I0|I0].
    - apply in_flat_map in I0 as (f & F & I0). destruct (H f) as (H1 & H2); [apply in_or_app; auto|].
      apply (structs_ok first f Uni false) with (u := t); auto; [congruence|]. split; [intros e E; apply D1; apply in_flat_map; eauto|intros x n b E; eapply D2; apply in_flat_map; eauto].
    - apply in_map_iff in I0 as (e & <- & I0). apply filter_In in I0 as (I0 & S0). destruct (H (as_uniform e)) as (H1 & H2); [apply in_or_app; right; apply in_map; auto|].
      split; auto. split; auto. destruct (X (as_uniform e)) as (X1 & X2); [apply in_map; auto|destruct e; auto|].
      split; [intros y Y; apply D1; auto|intros x n b Y; eapply D2; apply X2; eauto]. }
  change (snd (write_header fs es)) with (struct_items true ts). unfold struct_items.
  apply ordered_in_order. apply preprocess_ordered with (k := first).
  - apply items_keys; [intros t I0; apply T; auto|intros e []].
  - apply incl_refl.
  - apply items_ordered; [|cbn; auto]. intros t I0. destruct (T t I0) as (A & _ & B). auto.
  - intros x n _ [].
Qed.
Print Assumptions C66_in_order_partial.

(** Every structure in the type of an exported function, by value at any depth, and every structure exported explicitly, is
    declared.  _partial: the same restrictions. *)
Theorem C66_declared_partial : forall fs es, (forall t, In t (fs ++ map as_uniform es) -> uniform_arrays false Uni t = true /\ no_soa Uni t = true) ->
  (forall f x name al ms, In f fs -> In (TStruct x name al ms) (structs Uni f) -> In (IStruct x name) (map fst (preprocess [] (snd (write_header fs es))))) /\
  (forall x name al ms, In (TStruct x name al ms) es -> In (IStruct Uni name) (map fst (preprocess [] (snd (write_header fs es))))).
Proof.
  intros fs es H. set (ts := flat_map (structs Uni) fs ++ map as_uniform (filter is_exported_struct es)).
  set (first := map IEnum (flat_map (enums Uni) ts) ++ flat_map (fun d => match d with (_, n, b) => [IVec n b] end) (flat_map (vectors Uni) ts)).
  assert (D : forall t, In t ts -> declares first Uni t).
  { intros t T. split; [intros e E; apply in_or_app; left; apply in_map; apply in_flat_map; eauto|].
    intros x n b E. apply in_or_app. right. apply in_flat_map. exists (x, n, b). split; [apply in_flat_map; eauto|left; auto]. }
  assert (T : forall t, In t ts -> uniform_arrays false Uni t = true /\ no_soa Uni t = true).
  { intros t I0. apply in_app_or in I0 as [I0|I0].
    - apply in_flat_map in I0 as (f & F & I0). destruct (H f) as (H1 & H2); [apply in_or_app; auto|].
      assert (DF : declares (map IEnum (enums Uni f) ++ map (fun d => IVec (snd (fst d)) (snd d)) (vectors Uni f)) Uni f).
      { split; [intros e E; apply in_or_app; left; apply in_map; auto|]. intros x n b E. apply in_or_app. right. apply in_map_iff. exists (x, n, b). auto. }
      destruct (structs_ok _ f Uni false ltac:(congruence) H1 H2 DF t I0) as (A & B & _). auto.
    - apply in_map_iff in I0 as (e & <- & I0). apply filter_In in I0 as (I0 & _). apply H. apply in_or_app. right. apply in_map. auto. }
  destruct (items_ordered first ts [] ltac:(intros t I0; destruct (T t I0); split; auto) ltac:(cbn; auto)) as (_ & _ & C). cbn zeta in C.
  pose proof (items_keys ts [] ltac:(intros t I0; apply T; auto) ltac:(intros e [])) as K.
  assert (Q : forall x n a ms, x <> Unb -> (match x with Soa _ => false | _ => true end) = true -> In (TStruct x n a ms) ts -> In (IStruct x n) (map fst (preprocess [] (struct_items true ts)))).
  { intros x n a ms N S0 I0. specialize (C _ (IStruct x n) I0). cbn [needs] in C. replace (eff Uni x) with x in C by (destruct x; cbn; congruence). specialize (C (or_introl eq_refl)).
    apply in_app_or in C as [C|C].
    - destruct (preprocess_complete _ [] x n K) with (2 := C) as [[]|P]; auto. unfold uv. destruct x; auto; congruence.
    - exfalso. unfold first in C. apply in_app_or in C as [C|C]; [apply in_map_iff in C as (e & E & _); discriminate|].
      apply in_flat_map in C as (((y & m) & b) & _ & [E|[]]). discriminate. }
  change (snd (write_header fs es)) with (struct_items true ts). split.
  - intros f x n a ms F I0. assert (In (TStruct x n a ms) ts) by (apply in_or_app; left; apply in_flat_map; eauto).
    assert (B : forall t v, v <> Unb -> forall x n a ms, In (TStruct x n a ms) (structs v t) -> x <> Unb).
    { clear. induction t as [x s|x n b|n t IH|x nm al ms IH] using hty_ind; intros v V y m a l I0; cbn [structs] in I0; try contradiction; eauto.
      destruct I0 as [I0|I0]; [injection I0 as <- _ _ _; apply eff_bound; auto|]. apply in_flat_map in I0 as (t & T & I0). rewrite Forall_forall in IH.
      eapply IH; [exact T| |exact I0]. apply eff_bound. auto. }
    eapply Q; [|  |exact H0]; [eapply (B f Uni); [congruence|exact I0]|]. destruct (T _ H0) as (_ & S0). cbn [no_soa] in S0. apply andb_true_iff in S0 as (S0 & _).
    destruct x; auto.
  - intros x n a ms I0. eapply (Q Uni n a ms); [congruence|reflexivity|]. apply in_or_app. right. apply in_map_iff. exists (TStruct x n a ms). split; auto. apply filter_In. auto.
Qed.
Print Assumptions C66_declared_partial.

(** export void f(uniform S *uniform s, uniform float<2> *uniform v), with struct S { T t[2]; E e; float<3> v; }. *)
Definition t1 : ty := TStruct Uni 1 0 [TScalar Unb (SB BFloat); TScalar Unb (SEnum 7)].
Definition t2 : ty := TStruct Uni 2 0 [TArray 2 t1; TScalar Unb (SEnum 8); TVector Unb 3 BFloat].
Definition t3 : ty := TStruct Uni 3 0 [t1; TStruct Vary 1 0 [TScalar Unb (SB BFloat); TScalar Unb (SEnum 7)]].
Example C66_example :
  forallb (fun t => uniform_arrays false Uni t && no_soa Uni t && uniform_vectors_only Uni t) [t2; TVector Uni 2 BFloat; t3] = true /\
  fst (write_header [t2; TVector Uni 2 BFloat; t3] [t1]) = [IVec 3 BFloat; IVec 2 BFloat; IEnum 7; IEnum 8] /\
  map fst (snd (write_header [t2; TVector Uni 2 BFloat; t3] [t1])) = [IStruct Uni 1; IStruct Uni 2; IStruct Vary 1; IStruct Uni 3].
Proof. vm_compute. auto. Qed.

(** The vectors and enumerations in a structure exported explicitly are not declared, so the header does not compile:
    export { S } (src/header.cpp 890-914 takes them from functions only). *)
Theorem C66_explicit_refuted :
  write_header [] [t2] = ([], snd (write_header [] [t2])) /\ In (IVec 3 BFloat) (needs false Uni (TVector Unb 3 BFloat)) /\
  ~ in_order (fst (write_header [] [t2])) (preprocess [] (snd (write_header [] [t2]))).
Proof.
  split; [reflexivity|]. split; [left; auto|]. intros H.
  specialize (H [(IStruct Uni 1, (Uni, [TScalar Unb (SB BFloat); TScalar Unb (SEnum 7)]))] (IStruct Uni 2) Uni [TArray 2 t1; TScalar Unb (SEnum 8); TVector Unb 3 BFloat] []).
  destruct (H eq_refl (TVector Unb 3 BFloat) (IVec 3 BFloat)) as [[]|[E|[]]]; [right; right; left; auto|left; auto|discriminate].
Qed.
Print Assumptions C66_explicit_refuted.

(** A soa structure and the uniform one of the same name have the same guard: the second is not declared. *)
Theorem C66_guard_refuted :
  let s := TStruct (Soa 4) 1 0 [TScalar Unb (SB BFloat)] in let r := TStruct Uni 1 0 [TScalar Unb (SB BFloat)] in
  map fst (snd (write_header [s; r] [])) = [IStruct (Soa 4) 1; IStruct Uni 1] /\
  map fst (preprocess [] (snd (write_header [s; r] []))) = [IStruct (Soa 4) 1].
Proof. vm_compute. auto. Qed.
Print Assumptions C66_guard_refuted.

(** A varying short vector in a structure is declared with a type the header does not define. *)
Theorem C66_varying_vector_refuted :
  let s := TStruct Uni 1 0 [TVector Vary 3 BFloat] in
  write_header [s] [] = ([], [(IStruct Uni 1, (Uni, [TVector Vary 3 BFloat]))]) /\ needs false Uni (TVector Vary 3 BFloat) = [IVec 3 BFloat].
Proof. vm_compute. auto. Qed.
Print Assumptions C66_varying_vector_refuted.

(** An array of varying structures needs the uniform structure, only the varying one is declared. *)
Theorem C66_array_of_varying_refuted :
  let a := TArray 2 (TStruct Vary 1 0 [TScalar Unb (SB BFloat)]) in let s := TStruct Uni 2 0 [a] in
  map fst (snd (write_header [s] [])) = [IStruct Vary 1; IStruct Uni 2] /\ needs false Uni a = [IStruct Uni 1].
Proof. vm_compute. auto. Qed.
Print Assumptions C66_array_of_varying_refuted.

(** With several targets, types are declared in the common header for gangs of 4, 8 and 16 only: none for avx512skx-x32 and
    x64; a uniform structure with varying members of its own has the layout of the first target. *)
Theorem C66_dispatch_refuted :
  dispatch_structs true [] [t2] [32; 64] = [] /\
  map (fun p => (fst p, map fst (snd p))) (dispatch_structs true [] [t2] [8; 16]) = [(8, [IStruct Uni 1; IStruct Uni 2]); (16, [])].
Proof. vm_compute. auto. Qed.
Print Assumptions C66_dispatch_refuted.
