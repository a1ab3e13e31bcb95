(** [__do_print] prints the format with the values. *)

From Coq Require Import ZArith Bool Ascii String DecimalString Decimal List Lia.
From Verif Require Import Bits PrintModel PrintSpec PrintProofs.
Import ListNotations.
Open Scope nat_scope.

(** * Texts without null characters *)

Definition clean (t : text) : Prop := ~ In NUL t.

Lemma clean_app t u : clean t -> clean u -> clean (t ++ u).
Proof. unfold clean. intros H1 H2 H. apply in_app_or in H. tauto. Qed.

Lemma clean_firstn n t : clean t -> clean (firstn n t).
Proof. intros H Hin. apply H. rewrite <- (firstn_skipn n t). apply in_or_app. auto. Qed.

Lemma clean_str s : forallb (fun c => negb (Ascii.eqb c NUL)) (str s) = true -> clean (str s).
Proof.
  intros H Hin. rewrite forallb_forall in H. apply H in Hin. rewrite Ascii.eqb_refl in Hin. discriminate.
Qed.

Lemma uint_clean u : forallb (fun c => negb (Ascii.eqb c NUL)) (str (NilEmpty.string_of_uint u)) = true.
Proof. induction u as [|u IH|u IH|u IH|u IH|u IH|u IH|u IH|u IH|u IH|u IH]; cbn in *; auto. Qed.

Lemma decimal_clean v : clean (decimal v).
Proof.
  apply clean_str. unfold NilZero.string_of_int, NilZero.string_of_uint. destruct (Z.to_int v) as [u|u].
  - destruct u; try reflexivity; exact (uint_clean _).
  - cbn [str list_ascii_of_string forallb].
    destruct u; try reflexivity; exact (uint_clean _).
Qed.

Section Number.
Variable number : base -> Z -> text.
Hypothesis Hnum : number_ok number.

Lemma show_clean k v : clean (show number k v).
Proof.
  destruct k; cbn [show]; try apply decimal_clean; try apply Hnum.
  destruct (v =? 0)%Z; apply clean_str; reflexivity.
Qed.

Lemma join_clean s l : clean s -> Forall clean l -> clean (join s l).
Proof.
  intros Hs. induction l as [|x l IH]; intros H; [intros []|].
  apply Forall_cons_iff in H as [H1 H2]. destruct l as [|y l]; [exact H1|].
  apply clean_app; [exact H1|]. apply clean_app; [exact Hs|]. exact (IH H2).
Qed.

Lemma show_arg_clean width mask a : clean (show_arg number width mask a).
Proof.
  unfold show_arg. destruct (a_varying a); [|apply show_clean].
  apply clean_app; [apply clean_str; reflexivity|].
  apply clean_app; [|apply clean_str; reflexivity].
  apply join_clean; [apply clean_str; reflexivity|].
  apply Forall_forall. intros x Hx. apply in_map_iff in Hx as (lane & <- & _). unfold show_lane.
  destruct (Z.testbit _ _); [apply show_clean|].
  apply clean_app; [apply clean_str; reflexivity|]. apply clean_app; [apply show_clean|apply clean_str; reflexivity].
Qed.

(** * The texts of the arguments *)

Definition kbase (k : kind) : base :=
  match k with
  | KBool => TBool
  | KInt8 | KUInt8 | KInt16 | KUInt16 | KInt32 => TInt
  | KUInt32 => TUInt
  | KInt64 => TLong
  | KUInt64 => TULong
  | KFloat16 | KFloat => TFloat
  | KDouble => TDouble
  | KPtr | KOther => TPtr
  end.

Lemma process_some a : a_kind a <> KOther ->
  process_arg a = Some ((if a_varying a then encode_varying else encode_uniform) (kbase (a_kind a)),
                        map (stored (a_kind a)) (a_vals a)).
Proof. intros H. unfold process_arg. destruct (a_varying a), (a_kind a); try reflexivity; congruence. Qed.

Lemma arg_to_str_eq garbage width mask k (varying : bool) vals :
  arg_to_str number garbage width mask ((if varying then encode_varying else encode_uniform) (kbase k)) vals =
  if varying then varying_to_str number garbage width mask (kbase k) vals
  else uniform_to_str number garbage (kbase k) vals.
Proof. destruct varying, k; reflexivity. Qed.

Lemma base_of_eq k (varying : bool) : base_of ((if varying then encode_varying else encode_uniform) (kbase k)) = Some (kbase k).
Proof. destruct varying, k; reflexivity. Qed.

Lemma wraps_back n v : (0 < n)%Z -> (- 2 ^ (n - 1) <= v < 2 ^ (n - 1))%Z -> wraps n (wrapu n v) = v.
Proof. intros Hn H. rewrite wraps_wrapu by lia. apply wraps_id; [lia|]. exact H. Qed.

Lemma wrapu_back n v : (0 <= v < 2 ^ n)%Z -> wrapu n (wrapu n v) = v.
Proof. intros H. unfold wrapu. rewrite (Z.mod_small v) by exact H. apply Z.mod_small. exact H. Qed.

Lemma convert_show k v : k <> KOther -> in_kind k v -> convert number (kbase k) (stored k v) = show number k v.
Proof.
  intros Hk H. destruct k; cbn [kbase convert stored cast_kind show in_kind] in *; try reflexivity; try congruence.
  - destruct H as [-> | ->]; reflexivity.
  - f_equal. apply wraps_back; lia.
  - f_equal. apply wraps_back; lia.
  - f_equal. apply wraps_back; lia.
  - f_equal. apply wraps_back; lia.
  - f_equal. apply wraps_back; lia.
  - f_equal. apply wrapu_back; lia.
  - f_equal. apply wraps_back; lia.
  - f_equal. apply wrapu_back; lia.
  - unfold wrapu. rewrite Z.mod_small by lia. reflexivity.
Qed.

Lemma stored_0 k : stored k 0 = 0%Z.
Proof. destruct k; reflexivity. Qed.

Lemma nth_stored k vals n : nth n (map (stored k) vals) 0%Z = stored k (nth n vals 0%Z).
Proof. rewrite <- (stored_0 k) at 1. apply map_nth. Qed.

Lemma lane_show k mask vals lane : k <> KOther -> in_kind k (nth lane vals 0%Z) ->
  (Z.testbit mask (Z.of_nat lane) = false -> k <> KBool) ->
  lane_text number mask (kbase k) (map (stored k) vals) lane = show_lane number k mask vals lane.
Proof.
  intros Hk H Hb. unfold lane_text, show_lane. cbv zeta. rewrite nth_stored.
  destruct (Z.testbit mask (Z.of_nat lane)); [apply convert_show; assumption|].
  specialize (Hb eq_refl). unfold off_text. rewrite convert_show by assumption.
  destruct k; try reflexivity; congruence.
Qed.

Lemma join_lanes (f : nat -> text) width : forall n a, a + n = width -> 0 < n ->
  flat_map (fun lane => f lane ++ [sep width lane]) (seq a n) = join (str ",") (map f (seq a n)) ++ str "]".
Proof.
  induction n as [|n IH]; intros a E Hn; [lia|]. destruct n as [|n].
  - cbn. unfold sep. replace (Nat.eqb a (width - 1)) with true by (symmetry; apply Nat.eqb_eq; lia).
    rewrite app_nil_r. reflexivity.
  - change (seq a (S (S n))) with (a :: seq (S a) (S n)).
    cbn [flat_map map]. rewrite (IH (S a)) by lia.
    change (join (str ",") (f a :: map f (seq (S a) (S n)))) with
      (f a ++ str "," ++ join (str ",") (map f (seq (S a) (S n)))).
    unfold sep. replace (Nat.eqb a (width - 1)) with false by (symmetry; apply Nat.eqb_neq; lia).
    rewrite <- !app_assoc. reflexivity.
Qed.

Lemma flat_map_ext_in {A B} (f g : A -> list B) l : (forall x, In x l -> f x = g x) -> flat_map f l = flat_map g l.
Proof.
  induction l as [|x l IH]; intros H; cbn; [reflexivity|].
  rewrite (H x) by (left; reflexivity). rewrite IH; [reflexivity|]. intros y Hy. apply H. right. exact Hy.
Qed.

Lemma varying_show width mask a : 0 < width -> arg_ok width a -> a_varying a = true -> ~ bool_off width mask a ->
  varying_text number width mask (kbase (a_kind a)) (map (stored (a_kind a)) (a_vals a)) = show_arg number width mask a.
Proof.
  intros Hw (Hk & HF & HL) Hv Hb. unfold show_arg. rewrite Hv in *.
  unfold varying_text, lanes_text. rewrite <- (join_lanes _ width width 0) by lia.
  change (str "[") with ["["%char]. cbn [app]. f_equal.
  apply flat_map_ext_in. intros lane Hin. apply in_seq in Hin. f_equal.
  apply lane_show; [exact Hk| |].
  - rewrite Forall_forall in HF. apply HF. apply nth_In. lia.
  - intros Hoff Ek. apply Hb. split; [exact Hv|]. split; [exact Ek|]. exists lane. split; [lia|exact Hoff].
Qed.

(** * The loop *)

Lemma copy_plain_ok : forall format room, clean format ->
  exists t r room', copy_plain format room = (t, r, room') /\ format = t ++ r /\ room = List.length t + room' /\
    filter is_percent t = [] /\ (room' = 0 \/ r = [] \/ exists r', r = "%"%char :: r').
Proof.
  induction format as [|c r IH]; intros room Hc.
  - exists [], [], room. destruct room; repeat split; auto.
  - destruct room as [|room'].
    + exists [], (c :: r), 0. repeat split; auto.
    + cbn [copy_plain].
      assert (Nc : Ascii.eqb c NUL = false).
      { apply Ascii.eqb_neq. intros ->. apply Hc. left. reflexivity. }
      rewrite Nc, orb_false_r. destruct (is_percent c) eqn:Ep.
      * exists [], (c :: r), (S room'). repeat split; auto. right. right. exists r. f_equal. apply Ascii.eqb_eq. exact Ep.
      * destruct (IH room') as (t & r1 & rm & E & E1 & E2 & E3 & E4).
        { intros Hin. apply Hc. right. exact Hin. }
        rewrite E. exists (c :: t), r1, rm. split; [reflexivity|]. split; [rewrite E1; reflexivity|].
        split; [cbn; lia|]. split; [cbn; rewrite Ep; exact E3|exact E4].
Qed.

Lemma copy_full_ok : forall u rest room, clean u -> copy_full (u ++ NUL :: rest) room = Some (firstn room u, room - List.length u).
Proof.
  induction u as [|c u IH]; intros rest room Hc.
  - destruct room; reflexivity.
  - assert (Nc : Ascii.eqb c NUL = false).
    { apply Ascii.eqb_neq. intros ->. apply Hc. left. reflexivity. }
    destruct room as [|room]; cbn [copy_full app]; rewrite Nc; [reflexivity|].
    rewrite IH; [reflexivity|]. intros Hin. apply Hc. right. exact Hin.
Qed.

Lemma replace_plain : forall t r shown, filter is_percent t = [] -> replace (t ++ r) shown = t ++ replace r shown.
Proof.
  induction t as [|c t IH]; intros r shown H; [reflexivity|]. cbn [filter] in H.
  destruct (is_percent c) eqn:E; [discriminate|]. cbn [app replace]. unfold is_percent in E. rewrite E.
  rewrite IH by exact H. reflexivity.
Qed.

Lemma firstn_over {A} (l : list A) k n : firstn (List.length l + k) (l ++ n) = l ++ firstn k n.
Proof. rewrite firstn_app. rewrite firstn_all2 by lia. f_equal. f_equal. lia. Qed.

(** The text of an argument in the buffer. *)
Definition prints garbage width mask (c : Z) (v : list Z) (u : text) : Prop :=
  clean u /\ exists rest, arg_to_str number garbage width mask c v = Some (u ++ NUL :: rest).

Lemma formatted_ok garbage width mask : forall fuel format types args shown room,
  clean format -> List.length (filter is_percent format) < fuel ->
  List.length (filter is_percent format) = List.length shown ->
  List.length types = List.length shown -> List.length args = List.length shown ->
  (forall i, i < List.length shown -> prints garbage width mask (nth i types 0%Z) (nth i args []) (nth i shown [])) ->
  formatted number fuel garbage width mask format types args room = Some (firstn room (replace format shown)).
Proof.
  induction fuel as [|fuel IH]; intros format types args shown room Hc Hf Hp Ht Ha Hs; [lia|].
  cbn [formatted]. destruct (copy_plain_ok format room Hc) as (t & r & room' & E & -> & -> & Ef & Er). rewrite E.
  rewrite replace_plain by exact Ef. rewrite firstn_over.
  rewrite filter_app, Ef in Hf, Hp. cbn [app] in Hf, Hp.
  destruct room' as [|room']; [cbn [firstn]; rewrite app_nil_r; reflexivity|].
  destruct Er as [Er | [-> | (r' & ->)]]; [discriminate| |].
  - cbn. rewrite app_nil_r. reflexivity.
  - change (Ascii.eqb "%" NUL) with false. cbn [replace]. change (Ascii.eqb "%" "%") with true. cbv iota.
    cbn [filter] in Hf, Hp. change (is_percent "%") with true in Hf, Hp. cbv iota in Hf, Hp. cbn [List.length] in Hf, Hp.
    destruct shown as [|u shown]; [discriminate|].
    destruct types as [|ty types]; [discriminate|]. destruct args as [|a args]; [discriminate|].
    cbn [List.length] in Hp, Ht, Ha.
    destruct (Hs 0) as (Hu & rest & Eb); [cbn; lia|]. cbn [nth] in Hu, Eb. rewrite Eb.
    rewrite copy_full_ok by exact Hu.
    rewrite (IH r' types args shown); try lia.
    + cbn [hd tl]. rewrite firstn_app. reflexivity.
    + intros Hin. apply Hc. apply in_or_app. right. right. exact Hin.
    + intros i Hi. exact (Hs (S i) ltac:(cbn; lia)).
Qed.

(** The first argument that does not fit. *)
Lemma formatted_out garbage width mask : forall fuel f1 f2 types args shown room ty a types' args',
  clean f1 ->
  List.length (filter is_percent f1) = List.length shown ->
  List.length types = List.length shown -> List.length args = List.length shown ->
  (forall i, i < List.length shown -> prints garbage width mask (nth i types 0%Z) (nth i args []) (nth i shown [])) ->
  List.length (replace f1 shown) < room ->
  arg_to_str number garbage width mask ty a = None ->
  formatted number fuel garbage width mask (f1 ++ "%"%char :: f2) (types ++ ty :: types') (args ++ a :: args') room = None.
Proof.
  induction fuel as [|fuel IH]; intros f1 f2 types args shown room ty a types' args' Hc Hp Ht Ha Hs Hr Ho; [reflexivity|].
  cbn [formatted].
  assert (G : exists t r, f1 = t ++ r /\ filter is_percent t = [] /\ (r = [] \/ exists r', r = "%"%char :: r') /\
     copy_plain (f1 ++ "%"%char :: f2) room = (t, r ++ "%"%char :: f2, room - List.length t)).
  { clear - Hc Hr. revert room shown Hr. induction f1 as [|c f1 IH]; intros room shown Hr.
    - exists [], []. repeat split; auto. destruct room; reflexivity.
    - assert (Nc : Ascii.eqb c NUL = false).
      { apply Ascii.eqb_neq. intros ->. apply Hc. left. reflexivity. }
      destruct room as [|room]; [lia|]. cbn [app copy_plain]. rewrite Nc, orb_false_r.
      destruct (is_percent c) eqn:Ep.
      + exists [], (c :: f1). repeat split; auto.
        right. exists f1. f_equal. apply Ascii.eqb_eq. exact Ep.
      + cbn [replace] in Hr. unfold is_percent in Ep. rewrite Ep in Hr. cbn [List.length] in Hr.
        destruct (IH ltac:(intros Hin; apply Hc; right; exact Hin) room shown ltac:(lia)) as (t & r & -> & E1 & E2 & E3).
        rewrite E3. exists (c :: t), r. split; [reflexivity|]. split; [cbn; unfold is_percent; rewrite Ep; exact E1|].
        split; [exact E2|]. reflexivity. }
  destruct G as (t & r & -> & E1 & E2 & E3). rewrite E3.
  rewrite replace_plain in Hr by exact E1. rewrite app_length in Hr.
  rewrite filter_app, E1 in Hp. cbn [app] in Hp.
  destruct (room - List.length t) as [|room'] eqn:Er; [lia|].
  destruct E2 as [-> | (r' & ->)].
  - cbn [app]. change (Ascii.eqb "%" NUL) with false. cbv iota.
    cbn in Hp. destruct types; [|cbn in Ht; lia]. destruct args; [|cbn in Ha; lia]. cbn [app].
    rewrite Ho. reflexivity.
  - cbn [app]. change (Ascii.eqb "%" NUL) with false. cbv iota.
    cbn [filter] in Hp. change (is_percent "%") with true in Hp. cbn [List.length] in Hp.
    destruct shown as [|u shown]; [discriminate|].
    destruct types as [|ty0 types]; [discriminate|]. destruct args as [|a0 args]; [discriminate|].
    cbn [List.length] in Hp, Ht, Ha. cbn [app].
    destruct (Hs 0) as (Hu & rest & Eb); [cbn; lia|]. cbn [nth] in Hu, Eb. rewrite Eb.
    rewrite copy_full_ok by exact Hu.
    cbn [replace] in Hr. change (Ascii.eqb "%" "%") with true in Hr. cbn [hd tl] in Hr. rewrite app_length in Hr.
    rewrite (IH r' f2 types args shown); auto; try lia.
    + intros Hin. apply Hc. apply in_or_app. right. right. exact Hin.
    + intros i Hi. exact (Hs (S i) ltac:(cbn; lia)).
Qed.

(** * The statement *)

Lemma process_args_ok : forall args, Forall (fun a => a_kind a <> KOther) args ->
  process_args args = Some (map (fun a => (if a_varying a then encode_varying else encode_uniform) (kbase (a_kind a))) args,
                            map (fun a => map (stored (a_kind a)) (a_vals a)) args).
Proof.
  induction args as [|a args IH]; intros H; [reflexivity|]. apply Forall_cons_iff in H as [H1 H2].
  cbn [process_args map]. rewrite process_some by exact H1. rewrite IH by exact H2. reflexivity.
Qed.

(** An argument whose text is right. *)
Definition fits (width : nat) (mask : Z) (a : arg) : Prop :=
  arg_ok width a /\ ~ bool_off width mask a /\ List.length (show_arg number width mask a) < ARG_STR_SIZE.

Lemma fits_prints garbage width mask a : 0 < width -> List.length garbage = ARG_STR_SIZE -> fits width mask a ->
  prints garbage width mask ((if a_varying a then encode_varying else encode_uniform) (kbase (a_kind a)))
    (map (stored (a_kind a)) (a_vals a)) (show_arg number width mask a).
Proof.
  intros Hw HL (Hok & Hb & Hlen). split; [apply show_arg_clean|]. rewrite arg_to_str_eq.
  destruct (a_varying a) eqn:Ev.
  - rewrite <- (varying_show width mask a Hw Hok Ev Hb) in *. apply varying_in; assumption.
  - destruct (uniform_in number garbage (kbase (a_kind a)) (map (stored (a_kind a)) (a_vals a)) HL) as (rest & E).
    rewrite E. rewrite nth_stored. destruct Hok as (Hk & HF & Hl). rewrite Ev in Hl.
    unfold show_arg in *. rewrite Ev in *.
    rewrite convert_show; [|exact Hk|].
    + rewrite firstn_all2 by lia. exists rest. reflexivity.
    + rewrite Forall_forall in HF. apply HF. apply nth_In. lia.
Qed.

Lemma nth_map_in {A B} (f : A -> B) l d d' n : n < List.length l -> nth n (map f l) d' = f (nth n l d).
Proof. intros H. rewrite (nth_indep _ d' (f d)) by (rewrite map_length; exact H). apply map_nth. Qed.

Definition arg0 : arg := mk_arg false KOther [].

Lemma print_cpu_ok garbage width mask format args : 0 < width -> List.length garbage = ARG_STR_SIZE ->
  clean format -> percents format = List.length args -> Forall (fits width mask) args ->
  print_cpu number garbage width mask format args =
    Printed (firstn 8195 (replace format (map (show_arg number width mask) args))).
Proof.
  intros Hw HL Hc Hp HF. unfold print_cpu, check_format.
  change (percents format) with (List.length (filter is_percent format)) in Hp.
  rewrite (proj2 (Nat.eqb_eq _ _) Hp).
  rewrite process_args_ok.
  2:{ eapply Forall_impl; [|exact HF]. intros a ((H & _) & _). exact H. }
  unfold do_print. rewrite (formatted_ok garbage width mask) with (shown := map (show_arg number width mask) args);
    rewrite ?map_length; auto.
  - unfold print_fuel. assert (G : List.length (filter is_percent format) <= List.length format).
    { clear. induction format as [|c f IH]; cbn; [lia|]. destruct (is_percent c); cbn; lia. }
    lia.
  - intros i Hi. rewrite !(nth_map_in _ _ arg0) by exact Hi. apply fits_prints; auto.
    rewrite Forall_forall in HF. apply HF. apply nth_In. exact Hi.
Qed.

Lemma print_cpu_overflow garbage width mask f1 f2 pre a post : 0 < width -> List.length garbage = ARG_STR_SIZE ->
  clean f1 -> percents f1 = List.length pre -> percents f2 = List.length post ->
  Forall (fits width mask) pre -> Forall (fun a => a_kind a <> KOther) post ->
  List.length (replace f1 (map (show_arg number width mask) pre)) < 8195 ->
  arg_ok width a -> ~ bool_off width mask a -> a_varying a = true ->
  ARG_STR_SIZE <= List.length (show_arg number width mask a) ->
  print_cpu number garbage width mask (f1 ++ "%"%char :: f2) (pre ++ a :: post) = Undefined.
Proof.
  intros Hw HL Hc Hp1 Hp2 HF Hpost Hr Hok Hb Hv Hlen. unfold print_cpu, check_format.
  change (percents f1) with (List.length (filter is_percent f1)) in Hp1.
  change (percents f2) with (List.length (filter is_percent f2)) in Hp2.
  rewrite (proj2 (Nat.eqb_eq _ _)).
  2:{ rewrite filter_app, !app_length. cbn [filter]. change (is_percent "%") with true. cbn [List.length]. lia. }
  rewrite process_args_ok.
  2:{ apply Forall_app. split.
      - eapply Forall_impl; [|exact HF]. intros x ((H & _) & _). exact H.
      - constructor; [apply Hok|exact Hpost]. }
  unfold do_print. rewrite !map_app. cbn [map].
  rewrite (formatted_out garbage width mask) with (shown := map (show_arg number width mask) pre);
    rewrite ?map_length; auto.
  - intros i Hi. rewrite !(nth_map_in _ _ arg0) by exact Hi. apply fits_prints; auto.
    rewrite Forall_forall in HF. apply HF. apply nth_In. exact Hi.
  - rewrite arg_to_str_eq, Hv. apply varying_out; [exact HL|].
    rewrite varying_show; auto.
Qed.

End Number.
