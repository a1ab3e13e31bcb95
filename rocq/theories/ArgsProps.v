(** Property C77: arguments from the command line, response files and ISPC_ARGS. *)
From Coq Require Import ZArith List Bool Lia Arith.
From Verif Require Import ArgsModel ArgsSpec ArgsProofs.
Import ListNotations.
Local Open Scope Z_scope.

(** A text without quotation marks (and NUL characters) is split at white-space as documented: its arguments
    are the fields, and there is only one way to see it as fields. *)
Theorem C77_split_partial s : plain s -> fields s (split s) /\ forall l, fields s l -> l = split s.
Proof.
  intros P. split; [now apply (split_is_fields (length s))|]. intros l F. symmetry. now apply split_fields.
Qed.

(** Every list of arguments can be written in a response file or in ISPC_ARGS, with white-space, quotation marks
    and empty arguments, in any layout: writing each argument with [quote]. *)
Theorem C77_quoting (l : list (text * text)) :
  Forall (fun p => ~ In 0 (fst p) /\ snd p <> [] /\ spaces (snd p)) l ->
  split (flat_map (fun p => quote (fst p) ++ snd p) l) = map fst l.
Proof.
  intros H. apply split_quoted. eapply Forall_impl; [|exact H]. cbn. intros p [A B]. split; [|exact B].
  apply Forall_forall. intros c Hc ->. contradiction.
Qed.

(** Without readable response files the command line is taken as it is and ISPC_ARGS is appended to it. *)
Theorem C77_command_line fs n argv env :
  (forall a f c, In a argv -> a = 64 :: f -> fs f <> Some c) ->
  get_all fs n argv env = argv ++ get_all fs n [] env.
Proof.
  intros H. unfold get_all. cbn [flat_map app]. f_equal. induction argv as [|a argv IH]; [reflexivity|].
  cbn [flat_map]. rewrite add_single_other by (intros f c; apply H; now left). cbn. f_equal. apply IH.
  intros b f c Hb. apply H. now right.
Qed.

(** Response files are replaced by their arguments, in place, also those named in response files, if none of the
    texts contains quotation marks and they are nested no deeper than the number of files that can be open. *)
Theorem C77_response_files_partial fs n argv env l1 l2 ws d :
  let words c ws := plain c /\ fields c ws in
  expands_all words fs argv l1 d -> words env ws -> expands_all words fs ws l2 d -> (d <= n)%nat ->
  get_all fs n argv (Some env) = l1 ++ l2.
Proof.
  intros words H1 [P F] H2 Hd. destruct (expand_ok fs d n Hd) as [_ E]. unfold get_all.
  rewrite (E _ _ H1), (c_string_plain _ P), (split_fields _ _ F P), (E _ _ H2). reflexivity.
Qed.

(** Quotation marks are removed, and white-space between them does not separate arguments, although the
    documentation says that there is no quoting: the text -DS="a b" is one argument -DS=a b, not two arguments. *)
Definition define_ab : text := [45; 68; 83; 61; 34; 97; 32; 98; 34].
Theorem C77_quotes_refuted :
  split define_ab = [[45; 68; 83; 61; 97; 32; 98]] /\
  fields define_ab [[45; 68; 83; 61; 34; 97]; [98; 34]] /\ ~ fields define_ab (split define_ab).
Proof.
  split; [reflexivity|]. split.
  - assert (N : forall c, ~ In c [32; 9; 10; 11; 12; 13] -> ~ space c) by auto.
    apply (F_cons [] [45; 68; 83; 61; 34; 97] [32] [98; 34] [98; 34] []).
    + constructor.
    + discriminate.
    + repeat (apply Forall_cons; [apply N; cbn; lia|]); apply Forall_nil.
    + constructor; [unfold space; cbn; auto|constructor].
    + discriminate.
    + apply (F_last [] [98; 34] []); try constructor; try discriminate; [apply N; cbn; lia|].
      constructor; [apply N; cbn; lia|constructor].
  - change (split define_ab) with [[45; 68; 83; 61; 97; 32; 98]]. intros H.
    inversion H as [|s a s' Hs Ha Hn Hs' E|]; subst. inversion Hn as [|? ? _ Hn1]; subst.
    inversion Hn1 as [|? ? _ Hn2]; subst. inversion Hn2 as [|? ? _ Hn3]; subst. inversion Hn3 as [|? ? _ Hn4]; subst.
    inversion Hn4 as [|? ? _ Hn5]; subst. inversion Hn5 as [|? ? Q _]; subst. apply Q. unfold space. cbn. auto.
Qed.

(** Quoting does not keep an argument from being taken as a response file. *)
Theorem C77_quoted_file_refuted :
  exists fs env, split env = [[64; 102]] /\ env = quote [64; 102] /\
    get_all fs 10 [] (Some env) = [[45; 103]].
Proof.
  exists (fun f => if list_eq_dec Z.eq_dec f [102] then Some [45; 103] else None), (quote [64; 102]).
  repeat split.
Qed.

(** A file that names itself is read again and again until no more files can be opened; the last mention of it
    then stays as an argument, so the compiler is asked to compile a file named @a.  Nothing is reported.  With two
    mentions the number of arguments doubles with every file that can be opened. *)
Definition self_file (twice : bool) (f : text) : option text :=
  if list_eq_dec Z.eq_dec f [97] then Some (if twice then [64; 97; 32; 64; 97] else [64; 97]) else None.
Theorem C77_cycle_refuted :
  (forall n, add_single (self_file false) n [64; 97] = [[64; 97]]) /\
  (forall n, length (add_single (self_file true) n [64; 97]) = (2 ^ n)%nat) /\
  (forall twice (words : text -> list text -> Prop) l d, (forall c ws, words c ws -> ws = split c) ->
     ~ expands words (self_file twice) [64; 97] l d).
Proof.
  split; [|split].
  - induction n as [|n IH]; [reflexivity|]. cbn [add_single]. cbn [Z.eqb Pos.eqb self_file].
    change (flat_map (add_single (self_file false) n) [[64; 97]] = [[64; 97]]). cbn [flat_map]. now rewrite IH.
  - induction n as [|n IH]; [reflexivity|].
    change (length (flat_map (add_single (self_file true) n) [[64; 97]; [64; 97]]) = (2 ^ S n)%nat).
    cbn [flat_map]. rewrite !app_length, IH. cbn. lia.
  - intros twice words l d W. revert l. induction d as [|d IH]; intros l H.
    + inversion H as [? ? K|]; subst. exact (K [97] _ eq_refl eq_refl).
    + inversion H as [? ? K|f c ws ls d' E X Y]; subst; [exact (K [97] _ eq_refl eq_refl)|].
      assert (Ec : c = if twice then [64; 97; 32; 64; 97] else [64; 97]).
      { unfold self_file in E. destruct (list_eq_dec Z.eq_dec [97] [97]) as [_|N]; [|now destruct N]. injection E as <-. reflexivity. }
      subst c. apply W in X. subst ws.
      assert (Y' : exists r, split (if twice then [64; 97; 32; 64; 97] else [64; 97]) = [64; 97] :: r) by (destruct twice; eexists; reflexivity).
      destruct Y' as [r Y']. rewrite Y' in Y. inversion Y; subst. eapply IH. eassumption.
Qed.

(** A concrete case: a command line with a response file that names another. *)
Example C77_ex :
  let fs := fun f => if list_eq_dec Z.eq_dec f [97] then Some [45; 103; 10; 64; 98; 32]
                     else if list_eq_dec Z.eq_dec f [98] then Some [9; 120] else None in
  let words c ws := plain c /\ fields c ws in
  expands_all words fs [[64; 97]; [64; 99]; [49; 32; 50]] [[45; 103]; [120]; [64; 99]; [49; 32; 50]] 2 /\
  get_all fs 20 [[64; 97]; [64; 99]; [49; 32; 50]] (Some [118]) = [[45; 103]; [120]; [64; 99]; [49; 32; 50]; [118]].
Proof.
  cbv zeta. split; [|reflexivity].
  assert (P : forall s, forallb (fun c => negb (c =? 34) && negb (c =? 39) && negb (c =? 0)) s = true -> plain s).
  { intros s H. apply Forall_forall. intros c Hc. rewrite forallb_forall in H. specialize (H c Hc). lia. }
  apply (EA_cons _ _ [64; 97] [[45; 103]; [120]] _ [[64; 99]; [49; 32; 50]]).
  - apply (E_file _ _ [97] [45; 103; 10; 64; 98; 32] [[45; 103]; [64; 98]]); [reflexivity| |].
    + split; [now apply P|]. apply (split_is_fields 6); [cbn; lia|now apply P].
    + apply (EA_cons _ _ [45; 103] [[45; 103]] _ [[120]]); [constructor; discriminate|].
      apply (EA_cons _ _ [64; 98] [[120]] _ []); [|constructor].
      apply (E_file _ _ [98] [9; 120] [[120]]); [reflexivity| |].
      * split; [now apply P|]. apply (split_is_fields 2); [cbn; lia|now apply P].
      * apply (EA_cons _ _ [120] [[120]] _ []); constructor; discriminate.
  - apply (EA_cons _ _ [64; 99] [[64; 99]] _ [[49; 32; 50]]).
    + constructor. intros f c [= <-]. cbn. discriminate.
    + apply (EA_cons _ _ [49; 32; 50] [[49; 32; 50]] _ []); constructor; discriminate.
Qed.

Print Assumptions C77_split_partial.
Print Assumptions C77_quoting.
Print Assumptions C77_command_line.
Print Assumptions C77_response_files_partial.
Print Assumptions C77_quotes_refuted.
Print Assumptions C77_quoted_file_refuted.
Print Assumptions C77_cycle_refuted.
