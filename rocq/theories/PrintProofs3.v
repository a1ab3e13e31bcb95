(** Xe targets; assertions. *)

From Coq Require Import ZArith Bool Ascii String List Lia.
From Verif Require Import Bits PrintModel PrintSpec PrintProofs PrintProofs2.
Import ListNotations.
Open Scope nat_scope.

Section Number.
Variable number : base -> Z -> text.
Hypothesis Hnum : number_ok number.

(** * printf *)

Definition after (t : text) (r : option text) : option text :=
  match r with Some w => Some (t ++ w) | None => None end.

Lemma after_app t u r : after t (after u r) = after (t ++ u) r.
Proof. destruct r; cbn; [rewrite app_assoc|]; reflexivity. Qed.

Lemma printf_plain c r args : is_percent c = false -> printf number (c :: r) args = after [c] (printf number r args).
Proof.
  unfold is_percent. intros H. apply Ascii.eqb_neq in H.
  destruct c as [[] [] [] [] [] [] [] []]; try reflexivity. congruence.
Qed.

Lemma printf_text t : forall r args, filter is_percent t = [] -> printf number (t ++ r) args = after t (printf number r args).
Proof.
  induction t as [|c t IH]; intros r args H.
  - cbn [app]. destruct (printf number r args); reflexivity.
  - cbn [filter] in H. destruct (is_percent c) eqn:E; [discriminate|]. cbn [app].
    rewrite printf_plain by exact E. rewrite IH by exact H. rewrite after_app. reflexivity.
Qed.

Lemma printf_str t r args : printf number (str "%s" ++ r) (PStr t :: args) = after t (printf number r args).
Proof. reflexivity. Qed.

Lemma printf_value b v r args :
  printf number (specifier b ++ r) (raw_uniform b v :: args) = after (convert number b v) (printf number r args).
Proof.
  destruct b; try reflexivity. unfold raw_uniform, convert, bool_text.
  change (specifier TBool) with (str "%s"). rewrite printf_str. destruct (v =? 0)%Z; reflexivity.
Qed.

(** * One argument *)

Definition xe_lane (mask : Z) (b : base) (vals : list Z) (lane : nat) : text :=
  let on := Z.testbit mask (Z.of_nat lane) in
  (if on then [] else str "((") ++ convert number b (nth lane vals 0%Z) ++ (if on then [] else str "))").

Definition lane_args (mask : Z) (b : base) (vals : list Z) (lane : nat) : list parg :=
  let on := Z.testbit mask (Z.of_nat lane) in
  [PStr (if on then [] else str "(("); raw_uniform b (nth lane vals 0%Z); PStr (if on then [] else str "))")].

Lemma printf_lane mask b vals lane s r args :
  printf number ((str "%s" ++ specifier b ++ str "%s" ++ s) ++ r) (lane_args mask b vals lane ++ args) =
  after (xe_lane mask b vals lane) (printf number (s ++ r) args).
Proof.
  unfold lane_args, xe_lane. cbv zeta. cbn [app].
  rewrite <- !app_assoc. rewrite printf_str, printf_value, printf_str, !after_app, <- ?app_assoc. reflexivity.
Qed.

Lemma printf_lanes mask b vals r args : forall n a,
  printf number ((concat (repeat (str "%s" ++ specifier b ++ str "%s,") n) ++ str "%s" ++ specifier b ++ str "%s]") ++ r)
    (flat_map (lane_args mask b vals) (seq a (S n)) ++ args) =
  after (join (str ",") (map (xe_lane mask b vals) (seq a (S n))) ++ str "]") (printf number r args).
Proof.
  induction n as [|n IH]; intros a.
  - cbn [repeat concat app seq flat_map map join]. rewrite app_nil_r.
    change (str "%s]") with (str "%s" ++ str "]"). rewrite printf_lane.
    rewrite printf_text by reflexivity. rewrite after_app. reflexivity.
  - change (seq a (S (S n))) with (a :: seq (S a) (S n)). cbn [repeat concat flat_map].
    change (str "%s,") with (str "%s" ++ str ","). rewrite <- !app_assoc.
    change (str "%s" ++ specifier b ++ str "%s" ++ str "," ++ ?x) with (str "%s" ++ specifier b ++ str "%s" ++ str "," ++ x).
    pose proof (printf_lane mask b vals a (str ",")
      (concat (repeat (str "%s" ++ specifier b ++ str "%s" ++ str ",") n) ++ str "%s" ++ specifier b ++ str "%s]" ++ r)
      (flat_map (lane_args mask b vals) (seq (S a) (S n)) ++ args)) as E.
    rewrite <- !app_assoc in E. rewrite E. clear E.
    rewrite printf_text by reflexivity.
    specialize (IH (S a)). rewrite <- !app_assoc in IH.
    change (str "%s,") with (str "%s" ++ str ",") in IH. rewrite IH. rewrite !after_app.
    f_equal.
    change (map (xe_lane mask b vals) (a :: seq (S a) (S n))) with
      (xe_lane mask b vals a :: map (xe_lane mask b vals) (seq (S a) (S n))).
    change (join (str ",") (xe_lane mask b vals a :: map (xe_lane mask b vals) (seq (S a) (S n)))) with
      (xe_lane mask b vals a ++ str "," ++ join (str ",") (map (xe_lane mask b vals) (seq (S a) (S n)))).
    rewrite <- !app_assoc. reflexivity.
Qed.

Definition code (a : arg) : Z := (if a_varying a then encode_varying else encode_uniform) (kbase (a_kind a)).
Definition mem (a : arg) : list Z := map (stored (a_kind a)) (a_vals a).

Lemma code_uniform a : (code a <? 9)%Z = negb (a_varying a).
Proof. unfold code. destruct (a_varying a), (a_kind a); reflexivity. Qed.

Lemma lane_show_xe mask a lane : a_kind a <> KOther -> in_kind (a_kind a) (nth lane (a_vals a) 0%Z) ->
  xe_lane mask (kbase (a_kind a)) (mem a) lane = show_lane number (a_kind a) mask (a_vals a) lane.
Proof.
  intros Hk H. unfold xe_lane, show_lane, mem. cbv zeta. rewrite nth_stored, convert_show by assumption.
  destruct (Z.testbit mask (Z.of_nat lane)); [apply app_nil_r|reflexivity].
Qed.

Lemma printf_arg width mask a r args : 0 < width -> arg_ok width a ->
  printf number (xe_specifier width (code a) ++ r) (raw_arg width mask (code a) (mem a) ++ args) =
  after (show_arg number width mask a) (printf number r args).
Proof.
  intros Hw (Hk & HF & HL). unfold xe_specifier, raw_arg, code. rewrite base_of_eq. fold (code a). rewrite code_uniform.
  unfold show_arg. destruct (a_varying a) eqn:Ev; cbn [negb].
  - destruct width as [|width]; [lia|]. replace (S width - 1) with width by lia.
    rewrite <- app_assoc. rewrite printf_text by reflexivity.
    change (flat_map _ (seq 0 (S width))) with (flat_map (lane_args mask (kbase (a_kind a)) (mem a)) (seq 0 (S width))).
    rewrite printf_lanes. rewrite after_app. do 4 f_equal.
    apply map_ext_in. intros lane Hin. apply in_seq in Hin. apply lane_show_xe; [exact Hk|].
    rewrite Forall_forall in HF. apply HF. apply nth_In. lia.
  - change (fun x => @Some ?t x) with (@Some t). cbn [app]. rewrite printf_value. unfold mem. rewrite nth_stored, convert_show; auto.
    rewrite Forall_forall in HF. apply HF. apply nth_In. lia.
Qed.

(** * One call *)

Lemma printf_call width mask : forall format args, 0 < width -> Forall (arg_ok width) args ->
  List.length (filter is_percent format) = List.length args ->
  exists f, xe_format width format (map code args) = Some f /\
    List.length f = List.length format - List.length args +
       list_sum (map (fun a => List.length (xe_specifier width (code a))) args) /\
    forall rest, printf number f (flat_map (fun a => raw_arg width mask (code a) (mem a)) args ++ rest) =
      Some (replace format (map (show_arg number width mask) args)).
Proof.
  intros format args Hw. revert args.
  induction format as [|c format IH]; intros args Ha Hp.
  - destruct args; [|discriminate]. exists []. repeat split.
  - cbn [filter] in Hp. cbn [xe_format replace]. destruct (is_percent c) eqn:Ec.
    + destruct args as [|a args]; [discriminate|]. cbn [List.length] in Hp. apply Forall_cons_iff in Ha as [Ha1 Ha2].
      destruct (IH args Ha2 ltac:(lia)) as (f & E & L & P). cbn [map].
      rewrite E. exists (xe_specifier width (code a) ++ f). split; [reflexivity|]. split.
      * rewrite app_length. cbn [List.length map list_sum fold_right]. unfold list_sum in L. cbn [list_sum]. lia.
      * intros rest. unfold is_percent in Ec. rewrite Ec. cbn [flat_map hd tl]. rewrite <- app_assoc.
        rewrite printf_arg by assumption. rewrite P. reflexivity.
    + destruct (IH args Ha Hp) as (f & E & L & P). rewrite E. exists (c :: f). split; [reflexivity|]. split.
      * cbn [List.length]. assert (List.length (filter is_percent format) <= List.length format).
        { clear. induction format as [|x f IH]; cbn; [lia|]. destruct (is_percent x); cbn; lia. }
        lia.
      * intros rest. unfold is_percent in Ec. rewrite Ec. rewrite printf_plain by exact Ec. rewrite P. reflexivity.
Qed.

(** * Slices *)

Lemma split_ok : forall format weights sum limit n m,
  split_valid format weights sum limit = (n, m) ->
  List.length (filter is_percent format) = List.length weights -> sum <= limit ->
  n <= List.length format /\ m <= List.length weights /\
  List.length (filter is_percent (firstn n format)) = m /\
  sum + (n - m) + list_sum (firstn m weights) <= limit /\ m <= n.
Proof.
  induction format as [|c format IH]; intros weights sum limit n m E Hp Hs.
  - cbn in E. injection E as <- <-. cbn. repeat split; lia.
  - cbn [split_valid] in E. cbn [filter] in Hp.
    assert (Z0 : 0 <= List.length (c :: format) /\ 0 <= List.length weights /\
       List.length (filter is_percent (firstn 0 (c :: format))) = 0 /\
       sum + (0 - 0) + list_sum (firstn 0 weights) <= limit /\ 0 <= 0) by (cbn; repeat split; lia).
    destruct (is_percent c) eqn:Ec; cbn [andb] in E.
    + destruct weights as [|w weights]; [discriminate|]. cbn [List.length] in Hp. cbn [hd tl] in E.
      destruct (Nat.ltb_spec limit (sum + w)) as [C | C].
      * injection E as <- <-. exact Z0.
      * destruct (split_valid format weights (sum + w) limit) as [n' m'] eqn:E'. injection E as <- <-.
        apply IH in E' as (H1 & H2 & H3 & H4 & H5); [|lia|lia].
        cbn [firstn filter List.length]. rewrite Ec. cbn [List.length]. unfold list_sum in *. cbn [fold_right]. repeat split; lia.
    + destruct (Nat.ltb_spec limit (S sum)) as [C | C].
      * injection E as <- <-. exact Z0.
      * destruct (split_valid format weights (S sum) limit) as [n' m'] eqn:E'. injection E as <- <-.
        apply IH in E' as (H1 & H2 & H3 & H4 & H5); [|lia|lia].
        cbn [firstn filter List.length]. rewrite Ec. repeat split; lia.
Qed.

Lemma split_progress c format weights limit n m : split_valid (c :: format) weights 0 limit = (n, m) ->
  1 <= limit -> Forall (fun w => w <= limit) weights -> n <> 0.
Proof.
  cbn [split_valid]. intros E Hl HF.
  set (use := is_percent c && match weights with [] => false | _ => true end) in *.
  destruct (Nat.ltb_spec limit (if use then 0 + hd 0 weights else 1)) as [C | C].
  - exfalso. destruct use; [|lia]. destruct weights as [|w ws]; [cbn in C; lia|].
    apply Forall_cons_iff in HF as [H _]. cbn in C. lia.
  - destruct (split_valid format _ _ limit). injection E as <- _. discriminate.
Qed.

Lemma firstn_sum l n : list_sum (firstn n l) + list_sum (skipn n l) = list_sum l.
Proof. rewrite <- list_sum_app, firstn_skipn. reflexivity. Qed.

Lemma replace_app : forall f1 f2 s1 s2, List.length (filter is_percent f1) = List.length s1 ->
  replace (f1 ++ f2) (s1 ++ s2) = replace f1 s1 ++ replace f2 s2.
Proof.
  induction f1 as [|c f1 IH]; intros f2 s1 s2 H.
  - destruct s1; [reflexivity|discriminate].
  - cbn [filter] in H. cbn [app replace]. change (Ascii.eqb c "%") with (is_percent c). destruct (is_percent c) eqn:Ec.
    + destruct s1 as [|x s1]; [discriminate|]. cbn [hd tl app]. rewrite IH by (cbn in H; lia). rewrite app_assoc. reflexivity.
    + rewrite IH by exact H. reflexivity.
Qed.

Lemma xe_calls_ok limit width mask : 0 < width -> 2 <= limit ->
  forall fuel format args, Forall (arg_ok width) args -> List.length format < fuel ->
  List.length (filter is_percent format) = List.length args ->
  Forall (fun a => List.length (xe_specifier width (code a)) < limit) args ->
  exists l calls,
    slices fuel format (map (fun a => List.length (xe_specifier width (code a))) args) (map (fun a => (code a, mem a)) args) limit = Some l /\
    fold_right (fun '(f, a) acc =>
        match xe_format width f (map fst a), acc with
        | Some f, Some l => Some ((f, flat_map (fun '(c, v) => raw_arg width mask c v) a) :: l)
        | _, _ => None
        end) (Some []) l = Some calls /\
    Forall (fun '(f, _) => List.length f < limit) calls /\
    run_calls number calls = Some (replace format (map (show_arg number width mask) args)).
Proof.
  intros Hw Hl. induction fuel as [|fuel IH]; intros format args Ha Hf Hp HF; [lia|].
  destruct format as [|c format].
  - destruct args; [|discriminate]. exists [], []. repeat split. constructor.
  - cbn [slices].
    destruct (split_valid (c :: format) (map (fun a => List.length (xe_specifier width (code a))) args) 0 (limit - 1))
      as [n m] eqn:Es.
    pose proof (split_progress _ _ _ _ _ _ Es ltac:(lia)) as Hn.
    assert (HF' : Forall (fun w => w <= limit - 1) (map (fun a => List.length (xe_specifier width (code a))) args)).
    { apply Forall_map. eapply Forall_impl; [|exact HF]. cbn. intros. lia. }
    specialize (Hn HF').
    apply split_ok in Es as (H1 & H2 & H3 & H4 & H5); [|rewrite map_length; exact Hp|lia].
    rewrite map_length in H2. rewrite firstn_map in H4.
    set (f := c :: format) in *.
    assert (Q : List.length (filter is_percent (skipn n f)) = List.length (skipn m args)).
    { rewrite skipn_length. rewrite <- (firstn_skipn n f), filter_app, app_length in Hp. lia. }
    assert (Lf : List.length (firstn m args) = m) by (rewrite firstn_length; lia).
    destruct (IH (skipn n f) (skipn m args)) as (l & calls & E1 & E2 & E3 & E4).
    { apply Forall_forall. intros x Hx. rewrite Forall_forall in Ha. apply Ha.
      rewrite <- (firstn_skipn m args). apply in_or_app. right. exact Hx. }
    { rewrite skipn_length. lia. }
    { exact Q. }
    { apply Forall_forall. intros x Hx. rewrite Forall_forall in HF. apply HF.
      rewrite <- (firstn_skipn m args). apply in_or_app. right. exact Hx. }
    destruct n as [|n']; [congruence|]. set (n := S n') in *.
    rewrite !skipn_map. rewrite E1. rewrite firstn_map.
    destruct (printf_call width mask (firstn n f) (firstn m args) Hw) as (g & G1 & G2 & G3).
    { apply Forall_forall. intros x Hx. rewrite Forall_forall in Ha. apply Ha.
      rewrite <- (firstn_skipn m args). apply in_or_app. left. exact Hx. }
    { rewrite H3, Lf. reflexivity. }
    eexists. eexists. split; [reflexivity|]. split.
    { cbn [fold_right]. rewrite map_map. cbn [fst]. rewrite E2. change (map (fun x => code x)) with (map code). rewrite G1. reflexivity. }
    split.
    + constructor; [|exact E3]. rewrite G2, Lf, firstn_length. lia.
    + cbn [run_calls]. rewrite E4. rewrite flat_map_concat_map, map_map, <- flat_map_concat_map.
      specialize (G3 []). rewrite app_nil_r in G3. rewrite G3.
      f_equal. rewrite <- replace_app.
      * rewrite <- map_app, !firstn_skipn. reflexivity.
      * rewrite map_length. rewrite H3, Lf. reflexivity.
Qed.

Lemma specifier_len width a : List.length (xe_specifier width (code a)) <= 9 * width + 10.
Proof.
  unfold xe_specifier, code. rewrite base_of_eq. fold (code a). rewrite code_uniform.
  set (b := kbase (a_kind a)).
  assert (Hb : List.length (specifier b) <= 4) by (destruct b; cbn; lia).
  destruct (a_varying a); cbn [negb]; [|lia]. rewrite !app_length.
  assert (R : forall n, List.length (concat (repeat (str "%s" ++ specifier b ++ str "%s,") n)) <= 9 * n).
  { induction n as [|n IH]; [cbn; lia|]. cbn [repeat concat]. rewrite !app_length.
    change (List.length (str "%s")) with 2. change (List.length (str "%s,")) with 3. lia. }
  specialize (R (width - 1)).
  change (List.length (str "%s")) with 2. change (List.length (str "%s]")) with 3. change (List.length (str "[")) with 1. lia.
Qed.

Lemma combine_map {A B C} (f : A -> B) (g : A -> C) l : combine (map f l) (map g l) = map (fun x => (f x, g x)) l.
Proof. induction l as [|x l IH]; cbn; [|rewrite IH]; reflexivity. Qed.

Lemma print_xe_ok width mask format args : 0 < width -> width <= 64 -> Forall (arg_ok width) args ->
  percents format = List.length args ->
  print_xe number width mask format args = Printed (replace format (map (show_arg number width mask) args)).
Proof.
  intros Hw Hw' Ha Hp. change (percents format) with (List.length (filter is_percent format)) in Hp.
  unfold print_xe, check_format. rewrite (proj2 (Nat.eqb_eq _ _) Hp).
  rewrite process_args_ok by (eapply Forall_impl; [|exact Ha]; intros a (H & _); exact H).
  change (map (fun a => (if a_varying a then encode_varying else encode_uniform) (kbase (a_kind a))) args) with (map code args).
  change (map (fun a => map (stored (a_kind a)) (a_vals a)) args) with (map mem args).
  rewrite combine_map. unfold xe_calls.
  assert (L0 : 9 * 64 + 10 < LZMaxFormatStrSize).
  { apply Nat.ltb_lt. vm_compute. reflexivity. }
  assert (L2 : 2 <= LZMaxFormatStrSize) by lia.
  set (limit := LZMaxFormatStrSize) in *. clearbody limit.
  destruct (xe_calls_ok limit width mask Hw L2 (S (List.length format)) format args Ha ltac:(lia) Hp)
    as (l & calls & E1 & E2 & E3 & E4).
  { apply Forall_forall. intros a _. pose proof (specifier_len width a). lia. }
  rewrite map_map. rewrite E1, E2, E4. reflexivity.
Qed.

Lemma xe_calls_short width mask format args : 0 < width -> width <= 64 -> Forall (arg_ok width) args ->
  percents format = List.length args ->
  exists calls, xe_calls LZMaxFormatStrSize width mask format
     (combine (map code args) (map mem args)) = Some calls /\
     Forall (fun '(f, _) => List.length f < LZMaxFormatStrSize) calls.
Proof.
  intros Hw Hw' Ha Hp. change (percents format) with (List.length (filter is_percent format)) in Hp.
  rewrite combine_map. unfold xe_calls.
  assert (L0 : 9 * 64 + 10 < LZMaxFormatStrSize).
  { apply Nat.ltb_lt. vm_compute. reflexivity. }
  assert (L2 : 2 <= LZMaxFormatStrSize) by lia.
  set (limit := LZMaxFormatStrSize) in *. clearbody limit.
  destruct (xe_calls_ok limit width mask Hw L2 (S (List.length format)) format args Ha ltac:(lia) Hp)
    as (l & calls & E1 & E2 & E3 & E4).
  { apply Forall_forall. intros a _. pose proof (specifier_len width a). lia. }
  exists calls. rewrite map_map. rewrite E1, E2. auto.
Qed.

End Number.

(** * Assertions *)

Open Scope Z_scope.

Lemma movmsk_0 bit v : movmsk bit v = 0 <-> Forall (fun x => Z.testbit x bit = false) v.
Proof.
  assert (P : forall v, 0 <= movmsk bit v).
  { induction v0 as [|x v0 IH]; cbn [movmsk]; [lia|]. destruct (Z.testbit x bit); cbn [Z.b2z]; lia. }
  induction v as [|x v IH]; cbn [movmsk]; [split; constructor|].
  rewrite Forall_cons_iff, <- IH. specialize (P v). destruct (Z.testbit x bit); cbn [Z.b2z].
  - split; [lia|intros [H _]; discriminate].
  - split; [intros H; split; [reflexivity|lia]|intros [_ H]; lia].
Qed.

Lemma ones_bit bits i : 0 <= i < bits -> Z.testbit (Z.ones bits) i = true.
Proof. intros H. apply Z.ones_spec_low. lia. Qed.

Lemma assert_gen (bits bit x : Z) (test mask : list bool) : 0 <= bit < bits -> Z.testbit x bit = true ->
  List.length test = List.length mask ->
  (movmsk bit (vec2 Z.land (map (fun y => Z.lxor y x) (as_mask bits test)) (as_mask bits mask)) = 0 <-> ~ fails test mask).
Proof.
  intros Hb Hx. rewrite movmsk_0. revert mask. induction test as [|t test IH]; intros mask HL.
  - destruct mask; [|discriminate]. split; [intros _ (i & H & _); destruct i; discriminate|constructor].
  - destruct mask as [|m mask]; [discriminate|]. cbn [List.length] in HL. injection HL as HL. specialize (IH mask HL).
    unfold as_mask, vec2 in *. cbn [map combine]. rewrite Forall_cons_iff, IH.
    rewrite Z.land_spec, Z.lxor_spec, Hx.
    assert (T : forall b : bool, Z.testbit (if b then Z.ones bits else 0) bit = b).
    { intros []; [apply ones_bit; lia|apply Z.testbit_0_l]. }
    rewrite !T. unfold fails. split.
    + intros [H1 H2] (i & Hm & Ht). destruct i as [|i].
      * cbn in Hm, Ht. injection Hm as ->. injection Ht as ->. discriminate.
      * apply H2. exists i. auto.
    + intros H. split.
      * destruct t, m; try reflexivity. exfalso. apply H. exists O. auto.
      * intros (i & Hm & Ht). apply H. exists (S i). auto.
Qed.

Lemma assert_varying_ok bits s test mask : 0 < bits -> List.length test = List.length mask ->
  (do_assert_varying bits s (as_mask bits test) (as_mask bits mask) = Stops s <-> fails test mask) /\
  (do_assert_varying bits s (as_mask bits test) (as_mask bits mask) = Continues <-> ~ fails test mask).
Proof.
  intros Hb HL. unfold do_assert_varying.
  pose proof (assert_gen bits (bits - 1) (Z.ones bits) test mask ltac:(lia) (ones_bit bits (bits - 1) ltac:(lia)) HL) as G.
  destruct (movmsk _ _ =? 0) eqn:E.
  - apply Z.eqb_eq in E. apply G in E. split; [split; [discriminate|tauto]|split; auto].
  - apply Z.eqb_neq in E.
    assert (D : fails test mask \/ ~ fails test mask).
    { clear. revert mask. induction test as [|t test IH]; intros mask.
      - right. intros (i & _ & H). destruct i; discriminate.
      - destruct mask as [|m mask]; [right; intros (i & H & _); destruct i; discriminate|].
        destruct (IH mask) as [(i & H) | H]; [left; exists (S i); exact H|].
        destruct t, m; try (right; intros (i & Hm & Ht); destruct i as [|i]; [discriminate|apply H; exists i; auto]).
        left. exists O. auto. }
    split; [split; [|reflexivity]|split; [discriminate|]]; intros H; tauto.
Qed.

Lemma assert_generic_ok bits s test mask : 0 < bits -> List.length test = List.length mask ->
  (do_assert_varying_generic s (as_mask bits test) (as_mask bits mask) = Stops s <-> fails test mask) /\
  (do_assert_varying_generic s (as_mask bits test) (as_mask bits mask) = Continues <-> ~ fails test mask).
Proof.
  intros Hb HL. unfold do_assert_varying_generic.
  pose proof (assert_gen bits 0 1 test mask ltac:(lia) eq_refl HL) as G.
  destruct (movmsk _ _ =? 0) eqn:E; cbn [negb].
  - apply Z.eqb_eq in E. apply G in E. split; [split; [discriminate|tauto]|split; auto].
  - apply Z.eqb_neq in E.
    assert (D : fails test mask \/ ~ fails test mask).
    { clear. revert mask. induction test as [|t test IH]; intros mask.
      - right. intros (i & _ & H). destruct i; discriminate.
      - destruct mask as [|m mask]; [right; intros (i & H & _); destruct i; discriminate|].
        destruct (IH mask) as [(i & H) | H]; [left; exists (S i); exact H|].
        destruct t, m; try (right; intros (i & Hm & Ht); destruct i as [|i]; [discriminate|apply H; exists i; auto]).
        left. exists O. auto. }
    split; [split; [|reflexivity]|split; [discriminate|]]; intros H; tauto.
Qed.
