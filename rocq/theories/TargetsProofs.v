From Coq Require Import ZArith List Bool String Ascii Lia.
From Verif Require Import DispatchModel TargetsTables TargetsModel TargetsSpec.
Import ListNotations.
Open Scope string_scope.

Lemma parse_row l s t : parse_target l s = t -> t <> T_error ->
  exists b, In (s, b, t) parse_table /\ (l = true \/ b = false).
Proof.
  unfold parse_target. destruct (find _ _) as [[[s' b] t']|] eqn:F; [|congruence]. intros <- _. apply find_some in F as (I & P). cbn [fst snd] in *.
  apply andb_prop in P as (E & P). apply String.eqb_eq in E. subst s'. exists b. split; auto. destruct l; auto. right. destruct b; auto.
Qed.

Lemma target_beq_iff a b : target_beq a b = true <-> a = b.
Proof. split; [apply internal_target_dec_bl|apply internal_target_dec_lb]. Qed.

Definition row_ok (r : string * bool * target) : bool :=
  let '(s, _, t) := r in
  match fields s with
  | None => target_beq t T_host || existsb (String.eqb s) (map fst former_names) || existsb (String.eqb s) ["avx512skx-x16-nozmm"; "avx512icl-x16-nozmm"]
  | Some (isa, mask, gang) =>
      existsb (String.eqb s) (map fst former_names) ||
      forallb (fun a64 =>
        match constructed t a64 with
        | None => false
        | Some a => (vectorWidth a =? gang)%Z && (maskBitCount a =? match mask with Some m => m | None => 1 end)%Z &&
            ((String.eqb isa "generic" && is_generic t && match a_isa a with None => true | _ => false end) ||
             match target_to_isa t, a_isa a with
             | Some i, Some j => tisa_eqb i j && existsb (String.eqb isa) (isa_names i)
             | _, _ => false
             end)
        end) [true; false]
  end.
Lemma rows_ok : forallb row_ok parse_table = true.
Proof. vm_compute. reflexivity. Qed.

Lemma tisa_eqb_iff a b : tisa_eqb a b = true <-> a = b.
Proof.
  unfold tisa_eqb. rewrite Z.eqb_eq. split; [|congruence].
  assert (NI : forall i j, num i = num j -> i = j) by (intros i j; destruct i, j; cbn; congruence).
  assert (NB : forall i, (num i < 15)%Z) by (intros i; destruct i; reflexivity).
  destruct a as [i| | | | | | | | | | |], b as [j| | | | | | | | | | |]; cbn [tisa_num]; intros E; try discriminate E; auto; try (rewrite (NI i j E); auto);
    first [specialize (NB i); lia | specialize (NB j); lia].
Qed.
Lemma In_eqb s l : existsb (String.eqb s) l = true <-> In s l.
Proof.
  rewrite existsb_exists. split; [intros (x & I & E); apply String.eqb_eq in E; congruence|]. intros I. exists s. split; auto. apply String.eqb_refl.
Qed.

Lemma names_say l s t : parse_target l s = t -> t <> T_error ->
  match fields s with
  | Some (isa, mask, gang) => In s (map fst former_names) \/ says t isa mask gang
  | None => t = T_host \/ In s (map fst former_names) \/ In s ["avx512skx-x16-nozmm"; "avx512icl-x16-nozmm"]
  end.
Proof.
  intros P N. destruct (parse_row l s t P N) as (b & I & _). pose proof rows_ok as R. rewrite forallb_forall in R. specialize (R _ I).
  unfold row_ok in R. destruct (fields s) as [[[isa mask] gang]|].
  - apply orb_prop in R as [R|R]; [left; apply In_eqb; auto|]. right. intros a64. rewrite forallb_forall in R.
    assert (I2 : In a64 [true; false]) by (destruct a64; cbn; auto). specialize (R _ I2). destruct (constructed t a64) as [a|]; [|discriminate].
    exists a. split; auto. apply andb_prop in R as (R & Q). apply andb_prop in R as (R1 & R2). apply Z.eqb_eq in R1, R2. split; auto. split; auto.
    apply orb_prop in Q as [Q|Q].
    + left. apply andb_prop in Q as (Q & Q3). apply andb_prop in Q as (Q1 & Q2). apply String.eqb_eq in Q1. destruct (a_isa a); [discriminate|]. auto.
    + right. destruct (target_to_isa t) as [i|]; [|discriminate]. destruct (a_isa a) as [j|]; [|discriminate]. apply andb_prop in Q as (Q1 & Q2).
      apply tisa_eqb_iff in Q1. apply In_eqb in Q2. subst. eauto.
  - apply orb_prop in R as [R|R]; [apply orb_prop in R as [R|R]|].
    + left. apply target_beq_iff. auto.
    + right. left. apply In_eqb. auto.
    + right. right. apply In_eqb. auto.
Qed.

(** Lists of names. *)
Lemma split_none s : has_char "," s = false -> split_commas s = [s].
Proof.
  induction s as [|c s IH]; cbn [has_char split_commas]; auto. intros H. apply orb_false_iff in H as (H1 & H2). rewrite H1, (IH H2). auto.
Qed.
Lemma split_app s r : has_char "," s = false -> split_commas (s ++ "," ++ r) = s :: split_commas r.
Proof.
  induction s as [|c s IH]; cbn [has_char]; intros H; [reflexivity|]. apply orb_false_iff in H as (H1 & H2). cbn [append split_commas]. rewrite H1.
  change (String "," r) with ("," ++ r). rewrite (IH H2). auto.
Qed.
Lemma split_join l : l <> [] -> forallb (fun s => negb (has_char "," s)) l = true -> split_commas (comma_list l) = l.
Proof.
  induction l as [|s l IH]; [congruence|]. intros _ H. cbn [forallb] in H. apply andb_prop in H as (H1 & H2). apply negb_true_iff in H1.
  destruct l as [|s' l]; [apply split_none; auto|]. change (comma_list (s :: s' :: l)) with (s ++ "," ++ comma_list (s' :: l)). rewrite split_app; auto.
  f_equal. apply IH; auto. discriminate.
Qed.
Definition recognised (l : bool) (names : list string) : list target := filter (fun t => negb (is_error t)) (map (parse_target l) names).
Lemma append_nil_inv a b : a ++ b = "" -> a = "" /\ b = "".
Proof. destruct a; cbn; [auto|discriminate]. Qed.
Lemma pieces_spec l ps ts e : fst (parse_pieces l ps ts e) = (ts ++ recognised l ps)%list /\
  (snd (parse_pieces l ps ts e) = "" <-> e = "" /\ forall p, In p ps -> parse_target l p = T_error -> p = "").
Proof.
  revert ts e. induction ps as [|p ps IH]; intros ts e; cbn [parse_pieces].
  - cbn. rewrite app_nil_r. split; auto. split; [intros ->; split; auto; tauto|tauto].
  - unfold recognised. cbn [map filter]. cbn zeta. destruct (is_error (parse_target l p)) eqn:E; cbn [negb].
    + destruct (IH ts ((if e =? "" then e else e ++ ",") ++ p)) as (A & B). split; [exact A|]. rewrite B. clear A B.
      assert (T : parse_target l p = T_error) by (destruct (parse_target l p); try discriminate; auto). split.
      * intros (X & Y). apply append_nil_inv in X as (X & ->). destruct (String.eqb_spec e ""); [|apply append_nil_inv in X as (_ & ?); discriminate].
        split; auto. intros q [->|I]; auto.
      * intros (-> & Y). rewrite (Y p (or_introl eq_refl) T). split; auto. intros q I. apply Y. right. auto.
    + destruct (IH (ts ++ [parse_target l p])%list e) as (A & B). split; [rewrite A, <- app_assoc; auto|]. rewrite B. split; intros (X & Y); split; auto.
      * intros q [->|I]; auto. intros Q. rewrite Q in E. discriminate.
      * intros q I. apply Y. right. auto.
Qed.

(** Operating systems. *)
Lemma prefix_app_char s a c b : has_char c s = false -> prefix s (a ++ String c b) = true -> prefix s a = true.
Proof.
  revert a. induction s as [|x s IH]; intros a H P; [destruct a; auto|]. cbn [has_char] in H. apply orb_false_iff in H as (H1 & H2).
  destruct a as [|y a]; cbn [append prefix] in P.
  - destruct (ascii_dec x c) as [->|N]; [rewrite Ascii.eqb_refl in H1; discriminate|]. discriminate.
  - cbn [prefix]. destruct (ascii_dec x y); [|discriminate]. apply IH; auto.
Qed.
Lemma contains_app_char s a c b : has_char c s = false -> contains s (a ++ String c b) = true -> contains s a = true \/ contains s b = true.
Proof.
  intros H. induction a as [|y a IH]; intros C.
  - cbn [append contains] in C. apply orb_prop in C as [C|C]; auto. left. apply (prefix_app_char s "" c b) in C; auto. cbn [contains]. rewrite C. auto.
  - change (String y a ++ String c b) with (String y (a ++ String c b)) in C. cbn [contains] in C. apply orb_prop in C as [C|C].
    + left. cbn [contains]. rewrite (prefix_app_char s (String y a) c b) by auto. auto.
    + destruct (IH C) as [D|D]; auto. left. cbn [contains]. rewrite D. apply orb_true_r.
Qed.
Lemma prefix_app s a b : prefix s a = true -> prefix s (a ++ b) = true.
Proof.
  revert a. induction s as [|x s IH]; intros a; [destruct (a ++ b); auto|]. destruct a as [|y a]; cbn [prefix append]; [discriminate|].
  destruct (ascii_dec x y); auto.
Qed.
Lemma contains_left s a b : contains s a = true -> contains s (a ++ b) = true.
Proof.
  induction a as [|y a IH]; intros C.
  - cbn [contains] in C. rewrite orb_false_r in C. destruct b; cbn [append contains]; rewrite ?(prefix_app s "" _ C : prefix s ("" ++ _) = true); auto.
    + rewrite C. auto.
    + pose proof (prefix_app s "" (String a b) C) as P. cbn [append] in P. rewrite P. auto.
  - change (String y a ++ b) with (String y (a ++ b)). cbn [contains] in *. apply orb_prop in C as [C|C].
    + rewrite (prefix_app s (String y a) b C : prefix s (String y (a ++ b)) = true). auto.
    + rewrite IH; auto. apply orb_true_r.
Qed.
Lemma contains_right s a b : contains s b = true -> contains s (a ++ b) = true.
Proof. induction a as [|y a IH]; auto. intros C. cbn [append contains]. rewrite IH; auto. apply orb_true_r. Qed.
Lemma contains_refl s : contains s s = true.
Proof.
  assert (P : forall s, prefix s s = true) by (clear; induction s as [|x s IH]; cbn [prefix]; auto; destruct (ascii_dec x x); congruence).
  destruct s; cbn [contains]; rewrite P; auto.
Qed.

Lemma list_oses_sound su l acc s : has_char "," s = false -> has_char " " s = false -> s <> "" ->
  contains s (list_oses su l acc) = true -> contains s acc = true \/ exists o, In o l /\ su o = true /\ contains s (os_to_lower_string o) = true.
Proof.
  intros H1 H2 H3. revert acc. induction l as [|o l IH]; intros acc C; cbn [list_oses] in C; auto.
  apply IH in C as [C|(o' & I & C)]; [|right; exists o'; split; [right; auto|auto]].
  destruct (su o) eqn:SU; auto. destruct (String.eqb_spec acc "") as [->|NE].
  - cbn [append] in C. right. exists o. split; [left; auto|auto].
  - assert (E : (acc ++ ", ") ++ os_to_lower_string o = acc ++ String "," (String " " (os_to_lower_string o))).
    { clear. induction acc; cbn; [auto|]. cbn in IHacc. rewrite IHacc. auto. }
    rewrite E in C. apply contains_app_char in C as [C|C]; auto.
    change (String " " (os_to_lower_string o)) with ("" ++ String " " (os_to_lower_string o)) in C. apply contains_app_char in C as [C|C]; auto.
    + destruct s; [congruence|discriminate].
    + right. exists o. split; [left; auto|auto].
Qed.
Lemma list_oses_complete su l acc s : contains s acc = true \/ (exists o, In o l /\ su o = true /\ contains s (os_to_lower_string o) = true) ->
  contains s (list_oses su l acc) = true.
Proof.
  revert acc. induction l as [|o l IH]; intros acc C; cbn [list_oses]; [destruct C as [C|(? & [] & _)]; auto|].
  apply IH. destruct C as [C|(o' & [<-|I] & SU & C)].
  - left. destruct (su o); auto. destruct (acc =? ""); apply contains_left; auto. apply contains_left. auto.
  - left. rewrite SU. apply contains_right. auto.
  - right. eauto.
Qed.
Lemma parse_os_cases su s : parse_os su s <> O_error -> s = os_to_lower_string (parse_os su s) /\ contains s (get_supported_oses su) = true.
Proof.
  unfold parse_os. destruct (contains s (get_supported_oses su)) eqn:C; cbn [negb]; [|congruence]. intros N. split; auto. revert N.
  repeat (match goal with |- context[?a =? ?b] => destruct (String.eqb_spec a b); [intros _; subst; reflexivity|] end). congruence.
Qed.

(** Output files. *)
Lemma append_length a b : length (a ++ b) = (length a + length b)%nat.
Proof. induction a; cbn; auto. Qed.
Lemma append_inj_l a b c : a ++ b = a ++ c -> b = c.
Proof. induction a; cbn; auto. intros E. injection E. auto. Qed.
Lemma append_inj_r a b c : a ++ c = b ++ c -> a = b.
Proof.
  intros E. assert (L : length a = length b) by (apply (f_equal length) in E; rewrite !append_length in E; lia).
  revert b L E. induction a as [|x a IH]; intros [|y b] L E; try discriminate L; auto. cbn in *. injection E as -> E. f_equal. apply IH; auto.
Qed.
Lemma substring_all s : substring 0 (length s) s = s.
Proof. induction s; cbn; auto. f_equal. auto. Qed.
Lemma substring_split n s : (n <= length s)%nat -> substring 0 n s ++ substring n (length s - n) s = s.
Proof.
  revert n. induction s as [|c s IH]; intros [|n] H; cbn in *; auto; try lia.
  - f_equal. apply substring_all.
  - f_equal. apply IH. lia.
Qed.
Lemma find_last_le c s n : find_last_of c s = Some n -> (n < length s)%nat.
Proof.
  revert n. induction s as [|a s IH]; cbn; [discriminate|]. intros n. destruct (find_last_of c s) as [k|].
  - intros E. injection E as <-. specialize (IH k eq_refl). lia.
  - destruct (Ascii.eqb a c); [|discriminate]. intros E. injection E as <-. lia.
Qed.
Lemma app_assoc_s a b c : (a ++ b) ++ c = a ++ (b ++ c).
Proof. induction a; cbn; auto. f_equal. auto. Qed.
Lemma mangled_split f : exists a b, f = a ++ b /\ forall i, mangled_file_name f i = a ++ "_" ++ i ++ b.
Proof.
  unfold mangled_file_name. destruct (find_last_of "." f) as [n|] eqn:F.
  - exists (substring 0 n f), (substring n (length f - n) f). split; auto. apply find_last_le in F. rewrite substring_split by lia. auto.
  - exists f, "". split; [induction f; cbn; auto; f_equal; apply IHf; cbn in F; destruct (find_last_of "." f); auto; discriminate|].
    intros i. do 2 f_equal. clear. induction i; cbn; auto. f_equal. auto.
Qed.
Lemma mangled_inj f i j : mangled_file_name f i = mangled_file_name f j -> i = j.
Proof.
  destruct (mangled_split f) as (a & b & -> & M). rewrite !M. intros E. apply append_inj_l, append_inj_l, append_inj_r in E. auto.
Qed.
Lemma mangled_ne f i : mangled_file_name f i <> f.
Proof.
  destruct (mangled_split f) as (a & b & E & M). rewrite M. intros Q. apply (f_equal length) in Q. rewrite E in Q. rewrite !append_length in Q. cbn in Q. lia.
Qed.

Lemma check_isas_spec ts seen out : NoDup seen -> ~ (In (X SSE41) seen /\ In (X SSE42) seen) -> check_isas seen ts = Some out ->
  NoDup out /\ ~ (In (X SSE41) out /\ In (X SSE42) out) /\ exists l, out = (rev seen ++ l)%list /\ map Some l = map target_to_isa ts.
Proof.
  revert seen. induction ts as [|t ts IH]; intros seen ND NS F; cbn [check_isas] in F.
  - injection F as <-. split; [apply NoDup_rev; auto|]. split; [rewrite <- !in_rev; auto|]. exists []. rewrite app_nil_r. auto.
  - destruct (target_to_isa t) as [i|] eqn:TI; [|discriminate].
    assert (EX : forall j l, existsb (tisa_eqb j) l = true <-> In j l).
    { intros j l. rewrite existsb_exists. split; [intros (x & I & E); apply tisa_eqb_iff in E; congruence|]. intros I. exists j. split; auto. apply tisa_eqb_iff. auto. }
    destruct (existsb (tisa_eqb i) seen) eqn:E1; [discriminate|]. destruct (_ || _) eqn:E2; [discriminate|].
    assert (NI : ~ In i seen) by (rewrite <- EX; congruence). apply orb_false_iff in E2 as (E2 & E3).
    destruct (IH (i :: seen)) as (A & B & l & C & D); auto.
    + constructor; auto.
    + intros ([H1|H1] & [H2|H2]); subst; try discriminate; try tauto.
      * apply EX in H2. rewrite H2, andb_true_r in E3. discriminate.
      * apply EX in H1. rewrite H1, andb_true_r in E2. discriminate.
    + split; auto. split; auto. exists (i :: l). split; [rewrite C; cbn [rev]; rewrite <- app_assoc; auto|]. cbn [map]. congruence.
Qed.
Lemma isa_strings i j s : isa_to_string i = Some s -> isa_to_string j = Some s -> i = j \/ (i = X SSE41 /\ j = X SSE42) \/ (i = X SSE42 /\ j = X SSE41).
Proof.
  intros A B. destruct i as [i| | | | | | | | | | |]; try discriminate A; try (destruct i; try discriminate A);
  injection A as <-; destruct j as [j| | | | | | | | | | |]; try discriminate B; try (destruct j; try discriminate B); auto.
Qed.
Lemma output_distinct f ts out : output_files f ts = Some out -> NoDup out /\ ~ In f out /\ List.length out = List.length ts.
Proof.
  unfold output_files. destruct (check_isas [] ts) as [isas|] eqn:C; [|discriminate].
  destruct (check_isas_spec ts [] isas (NoDup_nil _) ltac:(cbn; tauto) C) as (ND & NS & l & E & L). cbn [rev app] in E. subst l. clear C.
  assert (LN : List.length isas = List.length ts) by (apply (f_equal (@List.length _)) in L; rewrite !map_length in L; auto). rewrite <- LN. clear L LN ts.
  revert out ND NS. induction isas as [|i isas IH]; cbn [fold_right]; intros out ND NS F; [injection F as <-; cbn; split; [constructor|auto]|].
  destruct (isa_to_string i) as [s|] eqn:SI; [|discriminate]. destruct (fold_right _ _ isas) as [l|] eqn:FR; [|discriminate]. injection F as <-.
  inversion ND as [|? ? NI ND']; subst. destruct (IH l ND') as (A & B & D); auto; [cbn [In] in NS; tauto|].
  split; [constructor; auto|split; [|cbn; auto]].
  - intros I. assert (G : forall isas l, fold_right (fun i acc => match isa_to_string i, acc with Some s, Some l => Some (mangled_file_name f s :: l) | _, _ => None end) (Some []) isas = Some l ->
      forall x, In x l -> exists j s', In j isas /\ isa_to_string j = Some s' /\ x = mangled_file_name f s').
    { clear. induction isas as [|i isas IH]; cbn [fold_right]; intros l F x I; [injection F as <-; destruct I|].
      destruct (isa_to_string i) as [s|] eqn:SI; [|discriminate]. destruct (fold_right _ _ isas) as [l'|] eqn:FR; [|discriminate]. injection F as <-.
      destruct I as [<-|I]; [exists i, s; cbn; auto|]. destruct (IH _ eq_refl x I) as (j & s' & J & K). exists j, s'. cbn. auto. }
    destruct (G _ _ FR _ I) as (j & s' & J & SJ & Q). apply mangled_inj in Q. subst s'.
    destruct (isa_strings i j s SI SJ) as [->|[(-> & ->)|(-> & ->)]]; [contradiction| |]; apply NS; cbn; auto.
  - cbn [In]. intros [Q|I]; auto. apply mangled_ne in Q. auto.
Qed.

(** The directory. *)
Lemma find_last_none c s : has_char c s = false -> find_last_of c s = None.
Proof. induction s as [|a s IH]; cbn; auto. intros H. apply orb_false_iff in H as (H1 & H2). rewrite (IH H2), H1. auto. Qed.
Lemma find_last_some c s : has_char c s = true -> exists n, find_last_of c s = Some n.
Proof.
  induction s as [|a s IH]; cbn; [discriminate|]. intros H. destruct (has_char c s) eqn:E.
  - destruct IH as (n & ->); auto. eauto.
  - rewrite find_last_none by auto. rewrite orb_false_r in H. rewrite H. eauto.
Qed.
Lemma find_last_app c a b : find_last_of c (a ++ b) = match find_last_of c b with Some n => Some (length a + n)%nat | None => find_last_of c a end.
Proof.
  induction a as [|x a IH]; cbn; [destruct (find_last_of c b); auto|]. rewrite IH. destruct (find_last_of c b); auto.
Qed.
Lemma substring_skip a b n : substring (length a + n) (length b - n) (a ++ b) = substring n (length b - n) b.
Proof. induction a; cbn; auto. Qed.
Lemma substring_keep a b n : substring 0 (length a + n) (a ++ b) = a ++ substring 0 n b.
Proof. induction a; cbn; auto. f_equal. auto. Qed.
Lemma mangled_dir d base i : has_char "." base = true \/ has_char "." d = false ->
  mangled_file_name (d ++ "/" ++ base) i = d ++ "/" ++ mangled_file_name base i.
Proof.
  intros H. assert (N : forall c, find_last_of c (d ++ "/" ++ base) = find_last_of c ((d ++ "/") ++ base)) by (intros; rewrite app_assoc_s; auto).
  assert (E : d ++ "/" ++ base = (d ++ "/") ++ base) by (rewrite app_assoc_s; auto). rewrite E. clear E N. unfold mangled_file_name.
  rewrite find_last_app. destruct (find_last_of "." base) as [n|] eqn:F.
  - rewrite substring_keep. rewrite (append_length (d ++ "/") base).
    replace (length (d ++ "/") + length base - (length (d ++ "/") + n))%nat with (length base - n)%nat by lia. rewrite substring_skip. rewrite !app_assoc_s. auto.
  - destruct H as [H|H]; [apply find_last_some in H as (n & H); congruence|]. rewrite find_last_app. cbn [find_last_of append Ascii.eqb].
    rewrite (find_last_none "." d H). cbn. rewrite !app_assoc_s. auto.
Qed.
