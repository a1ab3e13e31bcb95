(** C43: names of targets, architectures and operating systems on the command line.
    C56: the output files of a compilation for several targets.
    C57: the name of a target gives its instruction set, mask size and gang size; the library linked in has the same. *)
From Coq Require Import ZArith List Bool String Ascii.
From Verif Require Import DispatchModel DispatchSpec TargetsTables TargetsModel TargetsSpec TargetsProofs TargetsProofs2.
Import ListNotations.
Open Scope string_scope.

(** C43: the name printed for a target is read back as that target.
    Partial: not for the -nozmm targets, see C43_nozmm_refuted.  "none" and "error" are not targets one can ask for; the NVL targets need LLVM 22. *)
Theorem C43_print_parse_partial : forall (llvm22 : bool) (t : target),
  t <> T_none -> t <> T_error -> t <> T_avx512skx_x16_nozmm -> t <> T_avx512icl_x16_nozmm ->
  llvm22 = true \/ ~ In t [T_avx10_2nvl_x4; T_avx10_2nvl_x8; T_avx10_2nvl_x16; T_avx10_2nvl_x32; T_avx10_2nvl_x64] ->
  exists s, to_string t = Some s /\ parse_target llvm22 s = t.
Proof.
  intros l t N1 N2 N3 N4 L. destruct l.
  - destruct t; try contradiction; eexists; (split; [reflexivity|vm_compute; reflexivity]).
  - destruct L as [L|L]; [discriminate|]. destruct t; try contradiction; try (exfalso; apply L; cbn; tauto); eexists; (split; [reflexivity|vm_compute; reflexivity]).
Qed.
Print Assumptions C43_print_parse_partial.
(** Two targets with the same printed name: the target asked for with "-nozmm" is reported as the one with. *)
Theorem C43_nozmm_refuted : forall llvm22,
  parse_target llvm22 "avx512skx-x16-nozmm" = T_avx512skx_x16_nozmm /\ to_string T_avx512skx_x16_nozmm = Some "avx512skx-x16" /\
  parse_target llvm22 "avx512skx-x16" = T_avx512skx_x16 /\ T_avx512skx_x16 <> T_avx512skx_x16_nozmm.
Proof. intros []; repeat split; discriminate. Qed.

(** C43: former names stand for the current ones. *)
Theorem C43_former : forall llvm22 old new, In (old, new) former_names ->
  parse_target llvm22 old = parse_target llvm22 new /\ parse_target llvm22 new <> T_error.
Proof.
  intros l old new I. assert (K : forallb (fun p => target_beq (parse_target l (fst p)) (parse_target l (snd p)) && negb (is_error (parse_target l (snd p)))) former_names = true)
    by (destruct l; vm_compute; reflexivity).
  rewrite forallb_forall in K. specialize (K _ I). cbn [fst snd] in K. apply andb_prop in K as (K1 & K2). apply target_beq_iff in K1. split; auto.
  intros E. rewrite E in K2. discriminate.
Qed.
Print Assumptions C43_former.

(** C43: a list of names separated by commas gives the targets of the recognised ones, in order, and no message exactly
    when every name that is not recognised is empty. *)
Theorem C43_list : forall llvm22 (names : list string), names <> [] -> (forall n, In n names -> has_char "," n = false) ->
  fst (parse_targets llvm22 (comma_list names)) = filter (fun t => negb (is_error t)) (map (parse_target llvm22) names) /\
  (snd (parse_targets llvm22 (comma_list names)) = "" <-> forall n, In n names -> parse_target llvm22 n = T_error -> n = "").
Proof.
  intros l names N C. unfold parse_targets. rewrite split_join; auto; [|apply forallb_forall; intros n I; rewrite C; auto].
  destruct (pieces_spec l names [] "") as (A & B). split; [exact A|]. rewrite B. split; [tauto|auto].
Qed.
Print Assumptions C43_list.
Example C43_list_example : forall llvm22, parse_targets llvm22 (comma_list ["sse4"; "avx3"; "avx2-i32x8"; "neon-8"]) = ([T_sse4_i32x4; T_avx2_i32x8], "avx3,neon-8").
Proof. intros []; reflexivity. Qed.
(** Empty names are dropped without a message. *)
Theorem C43_empty_refuted : forall llvm22, parse_target llvm22 "" = T_error /\ parse_targets llvm22 "avx2,,sse4," = ([T_avx2_i32x8; T_sse4_i32x4], "") /\
  parse_targets llvm22 "" = ([], "").
Proof. intros []; repeat split; reflexivity. Qed.

(** C43: every target belongs to exactly one family. *)
Theorem C43_families : forall t, t <> T_none -> t <> T_host -> t <> T_error ->
  List.length (filter (fun p : target -> bool => p t) [is_x86; is_neon; is_riscv; is_wasm; is_gen; is_generic; is_vsx]) = 1%nat.
Proof. intros t N1 N2 N3. destruct t; try contradiction; reflexivity. Qed.
Print Assumptions C43_families.

(** C43: architectures. *)
Theorem C43_arch : forall a, a <> A_none -> a <> A_error -> parse_arch (arch_to_string a) = a.
Proof. intros a N1 N2. destruct a; try contradiction; reflexivity. Qed.
Theorem C43_arch_sound : forall s, parse_arch s <> A_error -> s = arch_to_string (parse_arch s) \/ s = "x86_64".
Proof.
  intros s. unfold parse_arch.
  repeat (match goal with |- context[if ?c then _ else _] => destruct c eqn:?; [intros _|] end); try congruence;
    try (left; apply String.eqb_eq; assumption).
  match goal with [ H : (_ || _)%bool = true |- _ ] => apply orb_prop in H as [H|H]; apply String.eqb_eq in H; auto end.
Qed.
Print Assumptions C43_arch_sound.

(** C43: operating systems, for every set of supported ones.  A supported one is accepted under its name ... *)
Theorem C43_os : forall supported o, o <> O_error -> supported o = true -> parse_os supported (os_to_lower_string o) = o.
Proof.
  intros su o N S. assert (C : contains (os_to_lower_string o) (get_supported_oses su) = true).
  { apply list_oses_complete. right. exists o. split; [destruct o; cbn; tauto|]. split; auto. apply contains_refl. }
  unfold parse_os. rewrite C. destruct o; reflexivity.
Qed.
Print Assumptions C43_os.
(** ... and what is accepted is supported, except "linux" where only custom_linux is. *)
Theorem C43_os_sound_partial : forall supported s, parse_os supported s <> O_error ->
  s = os_to_lower_string (parse_os supported s) /\
  (supported (parse_os supported s) = true \/ (s = "linux" /\ supported O_custom_linux = true)).
Proof.
  intros su s N. destruct (parse_os_cases su s N) as (E & C). split; auto. set (o := parse_os su s) in *. clearbody o. subst s.
  apply list_oses_sound in C; try (destruct o; try contradiction; (reflexivity || discriminate)).
  destruct C as [C|(o' & I & S & C)]; [destruct o; try contradiction; discriminate|]. destruct o, o'; try discriminate C; auto.
Qed.
Print Assumptions C43_os_sound_partial.
Theorem C43_linux_refuted : let supported := fun o => match o with O_custom_linux | O_windows => true | _ => false end in
  parse_os supported "linux" = O_linux /\ supported O_linux = false.
Proof. split; reflexivity. Qed.

(** C56: the variants of a program compiled for several targets go to as many different files, and none to the file asked for
    (which is that of the dispatch code).  The same strings are the suffixes of the exported functions. *)
Theorem C56_files_distinct : forall (file : string) (ts : list target) (files : list string),
  output_files file ts = Some files -> NoDup files /\ ~ In file files /\ List.length files = List.length ts.
Proof. exact output_distinct. Qed.
Print Assumptions C56_files_distinct.
Example C56_example : output_files "dir/a.b.o" [T_avx2_i32x8; T_sse4_i32x4; T_avx512skx_x16] = Some ["dir/a.b_avx2.o"; "dir/a.b_sse4.o"; "dir/a.b_avx512skx.o"].
Proof. reflexivity. Qed.
(** C56: they are in the directory asked for.  Partial: a file name without a dot in a directory with one is not handled. *)
Theorem C56_directory_partial : forall dir base isa, has_char "." base = true \/ has_char "." dir = false ->
  mangled_file_name (dir ++ "/" ++ base) isa = dir ++ "/" ++ mangled_file_name base isa.
Proof. exact mangled_dir. Qed.
Print Assumptions C56_directory_partial.
Theorem C56_directory_refuted : mangled_file_name "build.d/out" "avx2" = "build_avx2.d/out".
Proof. reflexivity. Qed.

(** C57: what the name says; former names are exempt ([former_names]: "sse2-x2" and the AVX-512 names with a mask size). *)
Theorem C57_name : forall llvm22 s t isa mask gang,
  parse_target llvm22 s = t -> t <> T_error -> fields s = Some (isa, mask, gang) ->
  In s (map fst former_names) \/ says t isa mask gang.
Proof. intros l s t isa mask gang P N F. pose proof (names_say l s t P N) as H. rewrite F in H. auto. Qed.
Print Assumptions C57_name.
Example C57_example : fields "avx2-i32x16" = Some ("avx2", Some 32%Z, 16%Z) /\ parse_target true "avx2-i32x16" = T_avx2_i32x16 /\
  says T_avx2_i32x16 "avx2" (Some 32%Z) 16 /\ fields "avx10.2nvl-x64" = Some ("avx10.2nvl", None, 64%Z) /\ says T_avx10_2nvl_x64 "avx10.2nvl" None 64.
Proof.
  split; [reflexivity|]. split; [reflexivity|]. split; [|split; [reflexivity|]]; intros a; eexists; (split; [reflexivity|]); (split; [reflexivity|]); (split; [reflexivity|]);
    right; eexists; (split; [reflexivity|]); (split; [reflexivity|]); cbn; auto.
Qed.
(** ... and every accepted name is of that form, "host", a former name or has the suffix "-nozmm". *)
Theorem C57_forms : forall llvm22 s t, parse_target llvm22 s = t -> t <> T_error -> fields s = None ->
  t = T_host \/ In s (map fst former_names) \/ In s ["avx512skx-x16-nozmm"; "avx512icl-x16-nozmm"].
Proof. intros l s t P N F. pose proof (names_say l s t P N) as H. rewrite F in H. auto. Qed.
Print Assumptions C57_forms.

(** C57: libraries.  The libraries linked in for a target are those of targets with the same gang size and mask size, and either of
    no particular instruction set or of one whose features the target's instruction set includes. *)
Theorem C57_libraries : forall llvm22 t p aarch64 x, constructed t aarch64 = Some x -> In p (chain llvm22 t) ->
  exists y, constructed p aarch64 = Some y /\ vectorWidth y = vectorWidth x /\ maskBitCount y = maskBitCount x /\
  (is_generic p = true \/
   (exists i j, target_to_isa t = Some (X i) /\ target_to_isa p = Some (X j) /\ forall h, supports h i -> supports h j) \/
   (exists i, target_to_isa t = Some i /\ target_to_isa p = Some i)).
Proof.
  intros l t p a x C I. destruct (chain_shape l t p a x C I) as (y & A & B & D & E). exists y. split; auto. split; auto. split; auto.
  destruct E as [E|[(i & j & E1 & E2 & E3)|E]]; auto. right. left. exists i, j. split; auto. split; auto. intros h S f F. apply S, E3. auto.
Qed.
Print Assumptions C57_libraries.
(** C57: whatever the libraries contain and whatever the program refers to, linking ends without "Unresolved symbol": every function the
    root of the hierarchy defines is defined in the result if anything refers to it; the program's own functions stay, what is added comes
    from the libraries of [chain], and no function is defined twice. *)
Theorem C57_link : forall llvm22 (lib : target -> list func) t (m : modul), t <> T_none ->
  exists m', link_target_builtins llvm22 lib t m = Some (m', false) /\
  (forall d n, In d m' -> In n (f_uses (fst d)) -> (exists f, In f (lib (last (chain llvm22 t) t)) /\ f_name f = n) -> exists e, In e m' /\ f_name (fst e) = n) /\
  (forall d, In d m -> In d m') /\
  (forall d, In d m' -> In d m \/ exists p, snd d = Some p /\ In p (chain llvm22 t) /\ In (fst d) (lib p)) /\
  (NoDup (map (fun d => f_name (fst d)) m) -> NoDup (map (fun d => f_name (fst d)) m')).
Proof.
  intros l lib t m N. destruct (link_good l lib t m N) as (m' & E & G1 & G2 & G3 & G4). exists m'. split; auto. split; [|split; [|split]]; auto.
  intros d n D U (f & F & Q). destruct (defined m' n) eqn:DE.
  - apply existsb_exists in DE as (e & I & DE). apply String.eqb_eq in DE. eauto.
  - exfalso. apply (G1 n f); auto. apply filter_In. split; [apply in_flat_map; eauto|]. rewrite DE. auto.
Qed.
Print Assumptions C57_link.
(** The root is a generic target, for all but the GPU ones (which have a complete library of their own). *)
Theorem C57_root : forall llvm22 t, t <> T_none -> t <> T_host -> t <> T_error -> is_gen t = false ->
  (llvm22 = true \/ ~ In t [T_avx10_2nvl_x4; T_avx10_2nvl_x8; T_avx10_2nvl_x16; T_avx10_2nvl_x32; T_avx10_2nvl_x64]) ->
  is_generic (last (chain llvm22 t) t) = true.
Proof. exact chain_root. Qed.
Print Assumptions C57_root.
Example C57_chain_example : chain true T_avx10_2nvl_x16 = [T_avx10_2nvl_x16; T_avx512icl_x16; T_avx512skx_x16; T_generic_i1x16].
Proof. reflexivity. Qed.
Example C57_link_example :
  let lib t := match t with
               | T_neon_i32x4 => [{| f_name := "sqrt"; f_uses := ["rcp"] |}; {| f_name := "unused"; f_uses := [] |}]
               | T_generic_i32x4 => [{| f_name := "sqrt"; f_uses := [] |}; {| f_name := "rcp"; f_uses := ["mul"] |}; {| f_name := "mul"; f_uses := [] |}]
               | _ => []
               end in
  link_target_builtins true lib T_neon_i32x4 [({| f_name := "main"; f_uses := ["sqrt"; "printf"] |}, None)]
  = Some ([({| f_name := "main"; f_uses := ["sqrt"; "printf"] |}, None); ({| f_name := "sqrt"; f_uses := ["rcp"] |}, Some T_neon_i32x4);
           ({| f_name := "rcp"; f_uses := ["mul"] |}, Some T_generic_i32x4); ({| f_name := "mul"; f_uses := [] |}, Some T_generic_i32x4)], false).
Proof. vm_compute. reflexivity. Qed.
(** Not so that the function of the most specific library is taken: one that becomes needed only by a function of a more generic library is taken from there. *)
Example C57_not_most_specific :
  let lib t := match t with
               | T_neon_i32x4 => [{| f_name := "rcp"; f_uses := [] |}]
               | T_generic_i32x4 => [{| f_name := "sqrt"; f_uses := ["rcp"] |}; {| f_name := "rcp"; f_uses := [] |}]
               | _ => []
               end in
  link_target_builtins true lib T_neon_i32x4 [({| f_name := "main"; f_uses := ["sqrt"] |}, None)]
  = Some ([({| f_name := "main"; f_uses := ["sqrt"] |}, None); ({| f_name := "sqrt"; f_uses := ["rcp"] |}, Some T_generic_i32x4);
           ({| f_name := "rcp"; f_uses := [] |}, Some T_generic_i32x4)], false).
Proof. vm_compute. reflexivity. Qed.
