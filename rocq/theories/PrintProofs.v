(** The buffers of [__do_print]. *)

From Coq Require Import ZArith Bool Ascii String DecimalString Decimal List Lia.
From Verif Require Import Bits PrintModel PrintSpec.
Import ListNotations.
Open Scope nat_scope.

Lemma put_app (t : text) x rest c : put (t ++ x :: rest) (List.length t) c = Some (t ++ c :: rest).
Proof. induction t as [|y t IH]; cbn; [reflexivity|]. rewrite IH. reflexivity. Qed.

Lemma put_out (buf : text) : forall k c, List.length buf <= k -> put buf k c = None.
Proof.
  induction buf as [|y t IH]; intros k c H; cbn; [reflexivity|]. destruct k; cbn in H; [lia|].
  rewrite IH by lia. reflexivity.
Qed.

Lemma puts_app (s : text) : forall (t rest : text), List.length s <= List.length rest ->
  puts (t ++ rest) (List.length t) s = Some (t ++ s ++ skipn (List.length s) rest).
Proof.
  induction s as [|c s IH]; intros t rest H; cbn; [reflexivity|].
  destruct rest as [|x rest]; cbn in H; [lia|].
  rewrite put_app. replace (t ++ c :: rest) with ((t ++ [c]) ++ rest) by (rewrite <- app_assoc; reflexivity).
  replace (S (List.length t)) with (List.length (t ++ [c])) by (rewrite app_length; cbn; lia).
  rewrite IH by lia. rewrite <- !app_assoc. reflexivity.
Qed.

Lemma puts_out (s : text) : forall (t rest : text), List.length rest < List.length s ->
  puts (t ++ rest) (List.length t) s = None.
Proof.
  induction s as [|c s IH]; intros t rest H; cbn in H; [lia|]. cbn.
  destruct rest as [|x rest].
  - rewrite put_out by (rewrite app_nil_r; lia). reflexivity.
  - cbn in H. rewrite put_app.
    replace (t ++ c :: rest) with ((t ++ [c]) ++ rest) by (rewrite <- app_assoc; reflexivity).
    replace (S (List.length t)) with (List.length (t ++ [c])) by (rewrite app_length; cbn; lia).
    apply IH. lia.
Qed.

(** [buf] is a buffer of the right size that starts with [t]. *)
Definition starts (buf t : text) : Prop := exists rest, buf = t ++ rest /\ List.length buf = ARG_STR_SIZE.

Lemma starts_len buf t : starts buf t -> List.length t <= ARG_STR_SIZE.
Proof. intros (rest & -> & H). rewrite app_length in H. lia. Qed.

Lemma snprintf_in buf t s : starts buf t -> List.length t + List.length s < ARG_STR_SIZE ->
  exists rest, snprintf buf (List.length t) s = Some (t ++ s ++ NUL :: rest, List.length s) /\
    List.length (t ++ s ++ NUL :: rest) = ARG_STR_SIZE.
Proof.
  intros (rest & -> & HL) H. rewrite app_length in HL. unfold snprintf.
  rewrite firstn_all2 by lia.
  rewrite puts_app by (rewrite app_length; cbn [List.length]; lia).
  rewrite app_length; cbn [List.length]. exists (skipn (List.length s + 1) rest). split.
  - rewrite <- app_assoc. reflexivity.
  - rewrite !app_length. cbn [List.length]. rewrite skipn_length. lia.
Qed.

Lemma snprintf_out buf t s : starts buf t -> t <> [] -> ARG_STR_SIZE <= List.length t + List.length s ->
  snprintf buf (List.length t) s = None.
Proof.
  intros (rest & -> & HL) Ht H. rewrite app_length in HL. unfold snprintf.
  assert (0 < List.length t) by (destruct t; [congruence|cbn; lia]).
  rewrite puts_out; [reflexivity|].
  rewrite app_length, firstn_length. cbn [List.length]. lia.
Qed.

Lemma starts_of buf t rest : buf = t ++ rest -> List.length buf = ARG_STR_SIZE -> starts buf t.
Proof. intros. exists rest. split; assumption. Qed.

(** One lane. *)
Section Number.
Variable number : base -> Z -> text.

Definition off_text (b : base) (v : Z) : text :=
  match b with
  | TBool => str "_________"
  | _ => str "((" ++ convert number b v ++ str "))"
  end.

Definition lane_text (mask : Z) (b : base) (vals : list Z) (lane : nat) : text :=
  let v := nth lane vals 0%Z in
  if Z.testbit mask (Z.of_nat lane) then convert number b v else off_text b v.

Lemma off_in buf t b v : starts buf t -> List.length t + List.length (off_text b v) < ARG_STR_SIZE ->
  exists rest, write_off_lane number buf (List.length t) b v =
    Some (t ++ off_text b v ++ NUL :: rest, List.length (t ++ off_text b v)) /\
    List.length (t ++ off_text b v ++ NUL :: rest) = ARG_STR_SIZE.
Proof.
  intros Hs H.
  assert (G : (exists rest, match snprintf buf (List.length t) (str "((") with
         | Some (buf, n) =>
             match snprintf buf (List.length t + n) (convert number b v) with
             | Some (buf, n') =>
                 match snprintf buf (List.length t + n + n') (str "))") with
                 | Some (buf, n'') => Some (buf, (List.length t + n + n' + n''))
                 | None => None
                 end
             | None => None
             end
         | None => None
         end = Some (t ++ (str "((" ++ convert number b v ++ str "))") ++ NUL :: rest,
                     List.length (t ++ (str "((" ++ convert number b v ++ str "))"))) /\
    List.length (t ++ (str "((" ++ convert number b v ++ str "))") ++ NUL :: rest) = ARG_STR_SIZE) \/ b = TBool).
  { assert (D : b = TBool \/ off_text b v = str "((" ++ convert number b v ++ str "))")
      by (destruct b; auto). destruct D as [D | D]; [right; exact D|left].
    rewrite D in H. rewrite !app_length in H.
    change (List.length (str "((")) with 2 in H. change (List.length (str "))")) with 2 in H.
    destruct (snprintf_in buf t (str "((") Hs) as (r1 & E1 & L1);
      [change (List.length (str "((")) with 2; lia|]. rewrite E1. clear E1.
    pose (t1 := t ++ str "((").
    assert (Lt1 : List.length t1 = List.length t + 2) by (unfold t1; rewrite app_length; reflexivity).
    assert (S1 : starts (t ++ str "((" ++ NUL :: r1) t1).
    { apply (starts_of _ _ (NUL :: r1)); [unfold t1; rewrite <- app_assoc; reflexivity|exact L1]. }
    change (List.length (str "((")) with 2. rewrite <- Lt1.
    destruct (snprintf_in _ t1 (convert number b v) S1) as (r2 & E2 & L2); [lia|]. rewrite E2. clear E2.
    pose (t2 := t1 ++ convert number b v).
    assert (Lt2 : List.length t2 = List.length t1 + List.length (convert number b v))
      by (unfold t2; rewrite app_length; reflexivity).
    assert (S2 : starts (t1 ++ convert number b v ++ NUL :: r2) t2).
    { apply (starts_of _ _ (NUL :: r2)); [unfold t2; rewrite <- app_assoc; reflexivity|exact L2]. }
    rewrite <- Lt2.
    destruct (snprintf_in _ t2 (str "))") S2) as (r3 & E3 & L3);
      [change (List.length (str "))")) with 2; lia|]. rewrite E3.
    exists r3.
    assert (Q : t2 ++ str "))" ++ NUL :: r3 = t ++ (str "((" ++ convert number b v ++ str "))") ++ NUL :: r3).
    { unfold t2, t1. rewrite <- !app_assoc. reflexivity. }
    rewrite <- Q. split; [|exact L3]. repeat f_equal. rewrite !app_length.
    change (List.length (str "))")) with 2. change (List.length (str "((")) with 2. lia. }
  destruct G as [G | ->].
  - destruct b; try exact G. cbn [off_text write_off_lane] in *.
    destruct (snprintf_in buf t (str "_________") Hs H) as (r & E & L). rewrite E. exists r.
    rewrite app_length. auto.
  - cbn [off_text write_off_lane] in *.
    destruct (snprintf_in buf t (str "_________") Hs H) as (r & E & L). rewrite E. exists r.
    rewrite app_length. auto.
Qed.

Lemma off_out buf t b v : starts buf t -> t <> [] -> ARG_STR_SIZE <= List.length t + List.length (off_text b v) ->
  write_off_lane number buf (List.length t) b v = None.
Proof.
  intros Hs Ht H.
  assert (D : b = TBool \/ (off_text b v = str "((" ++ convert number b v ++ str "))" /\
     write_off_lane number buf (List.length t) b v =
      match snprintf buf (List.length t) (str "((") with
         | Some (buf, n) =>
             match snprintf buf (List.length t + n) (convert number b v) with
             | Some (buf, n') =>
                 match snprintf buf (List.length t + n + n') (str "))") with
                 | Some (buf, n'') => Some (buf, (List.length t + n + n' + n''))
                 | None => None
                 end
             | None => None
             end
         | None => None
         end)) by (destruct b; auto).
  destruct D as [-> | [D E]].
  - cbn [off_text write_off_lane] in *. rewrite (snprintf_out buf t _ Hs Ht H). reflexivity.
  - rewrite E. rewrite D, !app_length in H.
    change (List.length (str "((")) with 2 in H. change (List.length (str "))")) with 2 in H. clear D E.
    destruct (Nat.lt_ge_cases (List.length t + 2) ARG_STR_SIZE) as [C1 | C1];
      [|rewrite (snprintf_out buf t (str "((") Hs Ht); [reflexivity|exact C1]].
    destruct (snprintf_in buf t (str "((") Hs C1) as (r1 & E1 & L1). rewrite E1. clear E1.
    pose (t1 := t ++ str "((").
    assert (Lt1 : List.length t1 = List.length t + 2) by (unfold t1; rewrite app_length; reflexivity).
    assert (S1 : starts (t ++ str "((" ++ NUL :: r1) t1).
    { apply (starts_of _ _ (NUL :: r1)); [unfold t1; rewrite <- app_assoc; reflexivity|exact L1]. }
    assert (N1 : t1 <> []) by (unfold t1; destruct t; discriminate).
    change (List.length (str "((")) with 2. rewrite <- Lt1.
    destruct (Nat.lt_ge_cases (List.length t1 + List.length (convert number b v)) ARG_STR_SIZE) as [C2 | C2];
      [|rewrite (snprintf_out _ t1 _ S1 N1 C2); reflexivity].
    destruct (snprintf_in _ t1 (convert number b v) S1 C2) as (r2 & E2 & L2). rewrite E2. clear E2.
    pose (t2 := t1 ++ convert number b v).
    assert (Lt2 : List.length t2 = List.length t1 + List.length (convert number b v))
      by (unfold t2; rewrite app_length; reflexivity).
    assert (S2 : starts (t1 ++ convert number b v ++ NUL :: r2) t2).
    { apply (starts_of _ _ (NUL :: r2)); [unfold t2; rewrite <- app_assoc; reflexivity|exact L2]. }
    assert (N2 : t2 <> []) by (unfold t2; destruct t1; [congruence|discriminate]).
    rewrite <- Lt2. rewrite (snprintf_out _ t2 (str "))") S2 N2); [reflexivity|].
    change (List.length (str "))")) with 2. lia.
Qed.

(** All lanes. *)
Definition sep (width lane : nat) : ascii := if Nat.eqb lane (width - 1) then "]" else ",".

Definition lanes_text (width : nat) (mask : Z) (b : base) (vals : list Z) (lanes : list nat) : text :=
  flat_map (fun lane => lane_text mask b vals lane ++ [sep width lane]) lanes.

Lemma lanes_in width mask b vals lanes : forall buf t, starts buf t ->
  List.length t + List.length (lanes_text width mask b vals lanes) <= ARG_STR_SIZE ->
  exists buf', write_lanes number width mask b vals lanes buf (List.length t) =
    Some (buf', List.length (t ++ lanes_text width mask b vals lanes)) /\
    starts buf' (t ++ lanes_text width mask b vals lanes).
Proof.
  induction lanes as [|lane lanes IH]; intros buf t Hs H.
  - cbn. rewrite app_nil_r. exists buf. auto.
  - unfold lanes_text in H. cbn [flat_map] in H. fold (lanes_text width mask b vals lanes) in H.
    rewrite !app_length in H. cbn [List.length] in H.
    assert (G : exists rest,
       (if Z.testbit mask (Z.of_nat lane) then
                 match snprintf buf (List.length t) (convert number b (nth lane vals 0%Z)) with
                 | Some (buf, n) => Some (buf, (List.length t + n))
                 | None => None
                 end
               else write_off_lane number buf (List.length t) b (nth lane vals 0%Z)) =
       Some (t ++ lane_text mask b vals lane ++ NUL :: rest, List.length (t ++ lane_text mask b vals lane)) /\
       List.length (t ++ lane_text mask b vals lane ++ NUL :: rest) = ARG_STR_SIZE).
    { unfold lane_text in *. destruct (Z.testbit mask (Z.of_nat lane)).
      - destruct (snprintf_in buf t (convert number b (nth lane vals 0%Z)) Hs) as (r & E & L); [lia|].
        rewrite E. exists r. rewrite app_length. auto.
      - apply (off_in buf t b _ Hs). lia. }
    destruct G as (rest & E & L). cbn [write_lanes]. cbv zeta. rewrite E. clear E.
    set (t1 := t ++ lane_text mask b vals lane) in *.
    replace (t ++ lane_text mask b vals lane ++ NUL :: rest) with (t1 ++ NUL :: rest) in *
      by (unfold t1; rewrite <- app_assoc; reflexivity).
    rewrite put_app. fold (sep width lane).
    set (t2 := t1 ++ [sep width lane]).
    assert (L2 : List.length t2 = S (List.length t1)) by (unfold t2; rewrite app_length; cbn; lia).
    assert (S2 : starts (t1 ++ sep width lane :: rest) t2).
    { apply (starts_of _ _ rest); [unfold t2; rewrite <- app_assoc; reflexivity|].
      rewrite app_length in *. cbn [List.length] in *. exact L. }
    rewrite <- L2.
    destruct (IH _ t2 S2) as (buf' & E & S').
    { rewrite L2. unfold t1. rewrite app_length. lia. }
    exists buf'. rewrite E.
    assert (Q : t2 ++ lanes_text width mask b vals lanes = t ++ lanes_text width mask b vals (lane :: lanes)).
    { unfold t2, t1, lanes_text. cbn [flat_map]. rewrite <- !app_assoc. reflexivity. }
    rewrite Q in *. auto.
Qed.

Lemma lanes_out width mask b vals lanes : forall buf t, starts buf t -> t <> [] ->
  ARG_STR_SIZE < List.length t + List.length (lanes_text width mask b vals lanes) ->
  write_lanes number width mask b vals lanes buf (List.length t) = None.
Proof.
  induction lanes as [|lane lanes IH]; intros buf t Hs Ht H.
  - cbn in H. pose proof (starts_len _ _ Hs). lia.
  - unfold lanes_text in H. cbn [flat_map] in H. fold (lanes_text width mask b vals lanes) in H.
    rewrite !app_length in H. cbn [List.length] in H.
    cbn [write_lanes]. cbv zeta.
    destruct (Nat.lt_ge_cases (List.length t + List.length (lane_text mask b vals lane)) ARG_STR_SIZE) as [C | C].
    + assert (G : exists rest,
       (if Z.testbit mask (Z.of_nat lane) then
                 match snprintf buf (List.length t) (convert number b (nth lane vals 0%Z)) with
                 | Some (buf, n) => Some (buf, (List.length t + n))
                 | None => None
                 end
               else write_off_lane number buf (List.length t) b (nth lane vals 0%Z)) =
       Some (t ++ lane_text mask b vals lane ++ NUL :: rest, List.length (t ++ lane_text mask b vals lane)) /\
       List.length (t ++ lane_text mask b vals lane ++ NUL :: rest) = ARG_STR_SIZE).
      { unfold lane_text in *. destruct (Z.testbit mask (Z.of_nat lane)).
        - destruct (snprintf_in buf t (convert number b (nth lane vals 0%Z)) Hs) as (r & E & L); [lia|].
          rewrite E. exists r. rewrite app_length. auto.
        - apply (off_in buf t b _ Hs). lia. }
      destruct G as (rest & E & L). rewrite E. clear E.
      set (t1 := t ++ lane_text mask b vals lane) in *.
      replace (t ++ lane_text mask b vals lane ++ NUL :: rest) with (t1 ++ NUL :: rest) in *
        by (unfold t1; rewrite <- app_assoc; reflexivity).
      rewrite put_app. fold (sep width lane).
      set (t2 := t1 ++ [sep width lane]).
      assert (L2 : List.length t2 = S (List.length t1)) by (unfold t2; rewrite app_length; cbn; lia).
      assert (S2 : starts (t1 ++ sep width lane :: rest) t2).
      { apply (starts_of _ _ rest); [unfold t2; rewrite <- app_assoc; reflexivity|].
        rewrite app_length in *. cbn [List.length] in *. exact L. }
      rewrite <- L2. apply IH; [exact S2| |].
      * unfold t2. destruct t1; discriminate.
      * rewrite L2. unfold t1. rewrite app_length. lia.
    + assert (E : (if Z.testbit mask (Z.of_nat lane) then
                 match snprintf buf (List.length t) (convert number b (nth lane vals 0%Z)) with
                 | Some (buf, n) => Some (buf, (List.length t + n))
                 | None => None
                 end
               else write_off_lane number buf (List.length t) b (nth lane vals 0%Z)) = None).
      { unfold lane_text in C. destruct (Z.testbit mask (Z.of_nat lane)).
        - rewrite (snprintf_out buf t _ Hs Ht C). reflexivity.
        - apply (off_out buf t b _ Hs Ht C). }
      rewrite E. reflexivity.
Qed.

Definition varying_text (width : nat) (mask : Z) (b : base) (vals : list Z) : text :=
  "["%char :: lanes_text width mask b vals (seq 0 width).

Lemma varying_in garbage width mask b vals : List.length garbage = ARG_STR_SIZE ->
  List.length (varying_text width mask b vals) < ARG_STR_SIZE ->
  exists rest, varying_to_str number garbage width mask b vals = Some (varying_text width mask b vals ++ NUL :: rest).
Proof.
  intros HL H. unfold varying_to_str. destruct garbage as [|g garbage]; [discriminate|].
  change (put (g :: garbage) 0 "["%char) with (Some ("["%char :: garbage)). cbv iota beta.
  destruct (lanes_in width mask b vals (seq 0 width) ("["%char :: garbage) ["["%char]) as (buf' & E & (r & -> & L)).
  - apply (starts_of _ _ garbage); [reflexivity|exact HL].
  - unfold varying_text in H. cbn [List.length] in *. lia.
  - change (List.length ["["%char]) with 1 in E. rewrite E.
    change (["["%char] ++ lanes_text width mask b vals (seq 0 width)) with (varying_text width mask b vals) in *.
    destruct r as [|x r]; [rewrite app_nil_r in L; lia|]. rewrite put_app. exists r. reflexivity.
Qed.

Lemma varying_out garbage width mask b vals : List.length garbage = ARG_STR_SIZE ->
  ARG_STR_SIZE <= List.length (varying_text width mask b vals) ->
  varying_to_str number garbage width mask b vals = None.
Proof.
  intros HL H. unfold varying_to_str. destruct garbage as [|g garbage]; [discriminate|].
  change (put (g :: garbage) 0 "["%char) with (Some ("["%char :: garbage)). cbv iota beta.
  assert (S0 : starts ("["%char :: garbage) ["["%char]).
  { apply (starts_of _ _ garbage); [reflexivity|exact HL]. }
  unfold varying_text in H. cbn [List.length] in H.
  destruct (Nat.eq_dec (S (List.length (lanes_text width mask b vals (seq 0 width)))) ARG_STR_SIZE) as [C | C].
  - destruct (lanes_in width mask b vals (seq 0 width) _ _ S0) as (buf' & E & (r & -> & L)).
    + change (List.length ["["%char]) with 1. lia.
    + change (List.length ["["%char]) with 1 in E. rewrite E.
      rewrite put_out; [reflexivity|]. rewrite L. rewrite app_length. change (List.length ["["%char]) with 1. lia.
  - change 1 with (List.length ["["%char]). rewrite (lanes_out width mask b vals (seq 0 width) _ _ S0);
      [reflexivity|discriminate|change (List.length ["["%char]) with 1; lia].
Qed.

Lemma uniform_in garbage b vals : List.length garbage = ARG_STR_SIZE ->
  exists rest, uniform_to_str number garbage b vals =
    Some (firstn (ARG_STR_SIZE - 1) (convert number b (nth 0 vals 0%Z)) ++ NUL :: rest).
Proof.
  intros HL. unfold uniform_to_str, snprintf.
  set (s := firstn (ARG_STR_SIZE - 1) (convert number b (nth 0 vals 0%Z)) ++ [NUL]).
  assert (List.length s <= ARG_STR_SIZE).
  { unfold s. rewrite app_length, firstn_length. cbn [List.length]. unfold ARG_STR_SIZE. lia. }
  pose proof (puts_app s [] garbage) as E. cbn [List.length app] in E. rewrite E by lia.
  unfold s. exists (skipn (List.length s) garbage). unfold s. rewrite <- app_assoc. reflexivity.
Qed.

End Number.
