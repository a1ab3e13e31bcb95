(** * Proofs about the scanner *)
From Coq Require Import ZArith Lia Bool Ascii String List.
From Verif Require Import Bits TypesModel LexModel LexSpec.
Import ListNotations.
Local Open Scope Z_scope.

Lemma digit_val_spec c d : digit c d -> digit_val c = Some (Z.of_nat d).
Proof.
  unfold digit. intros [H | H];
    do 16 (destruct d as [|d]; [injection H as <-; reflexivity|]); destruct d; discriminate H.
Qed.
Lemma digit_val_inv c v : digit_val c = Some v -> exists d, v = Z.of_nat d /\ digit c d.
Proof.
  intros H.
  assert (exists d, digit_val c = Some (Z.of_nat d) /\ digit c d) as (d & E & D).
  { destruct c as [[] [] [] [] [] [] [] []]; cbn in H; try discriminate H;
    match goal with |- exists d, digit_val ?c = _ /\ _ =>
      let r := eval cbv in (digit_val c) in
      match r with Some ?z => let n := eval cbv in (Z.to_nat z) in exists n end end;
    (split; [reflexivity | first [left; reflexivity | right; reflexivity]]). }
  exists d. split; [congruence | assumption].
Qed.

Lemma denotes_cons_nonempty b s v : denotes b s v -> exists c r d, s = c :: r /\ digit c d /\ Z.of_nat d < b.
Proof.
  induction 1 as [c d D L | s v c d H IH D L]; [exists c, [], d; auto|].
  destruct IH as (c' & r & d' & -> & D' & L'). exists c', (r ++ [c]), d'. auto.
Qed.
Lemma denotes_nonneg b s v : 0 <= b -> denotes b s v -> 0 <= v.
Proof. induction 2; nia. Qed.
Lemma denotes_forall b s v : denotes b s v -> Forall (fun c => exists d, digit c d /\ Z.of_nat d < b) s.
Proof. induction 1; [constructor; eauto | apply Forall_app; split; [assumption | constructor; eauto]]. Qed.

(* more digits continue the run *)
Lemma run_app b s v : denotes b s v -> forall rest acc, run_digits b acc (s ++ rest) = run_digits b (acc * b ^ Z.of_nat (length s) + v) rest.
Proof.
  induction 1 as [c d D L | s v c d H IH D L]; intros rest acc.
  - cbn [app run_digits length]. rewrite (digit_val_spec _ _ D). apply Z.ltb_lt in L. rewrite L. f_equal. change (Z.of_nat 1) with 1. lia.
  - rewrite <- app_assoc, IH. cbn [app run_digits]. rewrite (digit_val_spec _ _ D). apply Z.ltb_lt in L. rewrite L. f_equal.
    rewrite app_length, Nat2Z.inj_add, Z.pow_add_r by lia. cbn [length]. change (Z.of_nat 1) with 1. lia.
Qed.
Definition no_digit (b : Z) (s : name) : Prop := match s with c :: _ => is_digit_of b c = false | [] => True end.
Lemma run_stop b acc s : no_digit b s -> run_digits b acc s = (acc, s).
Proof.
  unfold no_digit, is_digit_of. destruct s as [|c s]; intros H; cbn; [reflexivity|].
  destruct (digit_val c); [rewrite H|]; reflexivity.
Qed.
Lemma run_denotes b s v rest : denotes b s v -> no_digit b rest -> run_digits b 0 (s ++ rest) = (v, rest).
Proof. intros H N. rewrite (run_app _ _ _ H), run_stop by assumption. f_equal. Qed.

(* binary *)
Lemma bin_char c d : digit c d -> Z.of_nat d < 2 -> char_in "01" c = true /\ (if Ascii.eqb c "0" then 0 else 1) = Z.of_nat d.
Proof.
  intros D L. destruct d as [|[|d]]; [| |lia]; destruct D as [H | H]; injection H as <-; auto.
Qed.
Lemma testbit63 v : 0 <= v < 2 ^ 64 -> Z.testbit v 63 = (2 ^ 63 <=? v).
Proof.
  intros H. destruct (Z.leb_spec (2 ^ 63) v) as [L | L].
  - rewrite Z.testbit_true by lia. replace (v / 2 ^ 63) with 1; [reflexivity|].
    apply (Z.div_unique v (2 ^ 63) 1 (v - 2 ^ 63)); [left|]; change (2 ^ 64) with (2 * 2 ^ 63) in H; lia.
  - rewrite Z.testbit_false by lia. rewrite Z.div_small by lia. reflexivity.
Qed.
Lemma binary_app s v : denotes 2 s v -> forall rest,
  lParseBinary 0 false (s ++ rest) = lParseBinary (v mod 2 ^ 64) (2 ^ 64 <=? v) rest.
Proof.
  induction 1 as [c d D L | s v c d H IH D L]; intros rest.
  - destruct (bin_char c d D L) as [E1 E2]. cbn [app lParseBinary]. rewrite E1, E2.
    change (wrapu 64 (2 * 0)) with 0. rewrite Z.mod_small by lia.
    destruct (Z.leb_spec (2 ^ 64) (Z.of_nat d)); [lia|]. reflexivity.
  - rewrite <- app_assoc, IH. destruct (bin_char c d D L) as [E1 E2]. cbn [app lParseBinary]. rewrite E1, E2.
    assert (P : 0 <= v) by (eapply denotes_nonneg; [|exact H]; lia).
    f_equal.
    + unfold wrapu. pose proof (Z.div_mod v (2 ^ 64) ltac:(lia)) as DM. pose proof (Z.mod_pos_bound v (2 ^ 64) ltac:(lia)) as MB.
      set (q := v / 2 ^ 64) in *. set (r := v mod 2 ^ 64) in *.
      apply (Z.mod_unique_pos _ _ (2 * q + (2 * r) / 2 ^ 64)).
      * pose proof (Z.mod_pos_bound (2 * r) (2 ^ 64) ltac:(lia)). pose proof (Z.div_mod (2 * r) (2 ^ 64) ltac:(lia)).
        split; [lia|]. set (k := 2 * r / 2 ^ 64) in *. set (w := (2 * r) mod 2 ^ 64) in *.
        assert (w = 2 * (r - 2 ^ 63 * k)) by (change (2 ^ 64) with (2 * 2 ^ 63) in *; lia). change (2 ^ 64) with (2 * 2 ^ 63) in *. lia.
      * pose proof (Z.div_mod (2 * r) (2 ^ 64) ltac:(lia)). lia.
    + rewrite testbit63 by (apply Z.mod_pos_bound; lia).
      destruct (Z.leb_spec (2 ^ 64) v) as [B | B]; cbn [orb].
      * symmetry. apply Z.leb_le. lia.
      * rewrite Z.mod_small by lia. change (2 ^ 64) with (2 * 2 ^ 63).
        destruct (Z.leb_spec (2 ^ 63) v), (Z.leb_spec (2 * 2 ^ 63) (v * 2 + Z.of_nat d)); auto; lia.
Qed.
Lemma binary_stop v w s : no_digit 2 s -> lParseBinary v w s = (v, w, s).
Proof.
  unfold no_digit, is_digit_of. destruct s as [|c s]; intros H; cbn [lParseBinary]; [reflexivity|].
  destruct (char_in "01" c) eqn:E; [|reflexivity]. exfalso.
  assert (c = "0" \/ c = "1")%char as [-> | ->].
  { cbn in E. destruct (Ascii.eqb_spec c "0"); [auto|]. destruct (Ascii.eqb_spec c "1"); [auto|]. discriminate E. }
  all: discriminate H.
Qed.
Lemma binary_denotes s v rest : denotes 2 s v -> no_digit 2 rest ->
  lParseBinary 0 false (s ++ rest) = (v mod 2 ^ 64, 2 ^ 64 <=? v, rest).
Proof. intros H N. rewrite (binary_app _ _ H), binary_stop by assumption. reflexivity. Qed.

(* what follows a numeral *)
Definition tail_of (dots : bool) (un suf : name) : name := un ++ suf ++ (if dots then lit "..." else []).

Definition units (un : name) : option (bool * bool * bool) :=
  match un with
  | [] => Some (false, false, false)
  | [c] => if Ascii.eqb c "k" then Some (true, false, false) else if Ascii.eqb c "M" then Some (false, true, false)
           else if Ascii.eqb c "G" then Some (false, false, true) else None
  | _ => None
  end.

Lemma suffix_cases suf u n : type_suffix suf u n ->
  Forall (fun c => In c (list_ascii_of_string "uUlL")) suf /\
  forall dots k m g rest, scan_suffix dots (Suf k m g 0 0) (suf ++ rest) = scan_suffix dots (Suf k m g n (if u then 1 else 0)%nat) rest.
Proof.
  intros (us & ls & U & (Ln & Le & F) & E).
  assert (LS : In ls (map lit [""; "l"; "L"; "ll"; "lL"; "Ll"; "LL"])%string).
  { destruct ls as [|a [|b [|c ls]]]; cbn in Ln; try (exfalso; lia); [left; reflexivity| |];
      inversion F as [|? ? A F']; subst; [|inversion F' as [|? ? B F'']; subst];
      repeat match goal with H : _ \/ _ |- _ => destruct H as [-> | ->] end; cbn; tauto. }
  assert (UL : us = (if u then us else [])) by (destruct u; [reflexivity | exact U]).
  unfold u_part in U. 
  destruct u; [destruct U as [-> | ->]|subst us];
  cbn in LS; repeat (destruct LS as [<- | LS]); try contradiction; cbn in Ln; subst n; destruct E as [-> | ->];
    (split; [cbn; repeat constructor; cbn; tauto | intros; destruct dots; reflexivity]).
Qed.

Lemma scan_tail dots un m suf u n : unit_suffix un m -> type_suffix suf u n ->
  exists k mm g, scan_suffix dots (Suf false false false 0 0) (tail_of dots un suf) = Some (Suf k mm g n (if u then 1 else 0)%nat) /\
    m = (if k then 1024 else 1) * (if mm then 1024 * 1024 else 1) * (if g then 1024 * 1024 * 1024 else 1) /\
    (forall v, 0 <= v -> v * m < 2 ^ 64 ->
      (let v := if k then wrapu 64 (v * 1024) else v in
       let v := if mm then wrapu 64 (v * (1024 * 1024)) else v in
       if g then wrapu 64 (v * (1024 * 1024 * 1024)) else v) = v * m).
Proof.
  intros U T. destruct (suffix_cases _ _ _ T) as [_ S]. unfold tail_of.
  assert (D : forall f, scan_suffix dots f (if dots then lit "..." else []) = Some f) by (intros f; destruct dots; reflexivity).
  destruct U; cbn [app lit list_ascii_of_string];
    [exists false, false, false | exists true, false, false | exists false, true, false | exists false, false, true];
    (split; [|split; [reflexivity | intros v P L; cbv zeta iota; try (apply wrapu_id; unfold in_u); lia]]).
  - rewrite S. apply D.
  - cbn [scan_suffix]. change (char_in "k" "k") with true. cbv iota. rewrite S. apply D.
  - cbn [scan_suffix]. change (char_in "k" "M") with false. change (char_in "M" "M") with true. cbv iota. rewrite S. apply D.
  - cbn [scan_suffix]. change (char_in "k" "G") with false. change (char_in "M" "G") with false. change (char_in "G" "G") with true. cbv iota. rewrite S. apply D.
Qed.

Lemma tail_head dots un m suf u n : unit_suffix un m -> type_suffix suf u n ->
  match tail_of dots un suf with [] => True | c :: _ => In c (list_ascii_of_string "kMGuUlL.") end.
Proof.
  intros U T. destruct (suffix_cases _ _ _ T) as [F _]. unfold tail_of.
  destruct U; cbn; try tauto.
  destruct suf as [|c suf]; cbn; [destruct dots; cbn; tauto|]. inversion F as [|? ? H _]; subst. cbn in H. cbn. tauto.
Qed.
Lemma tail_no_digit b dots un m suf u n : unit_suffix un m -> type_suffix suf u n -> no_digit b (tail_of dots un suf).
Proof.
  intros U T. pose proof (tail_head dots _ _ _ _ _ U T) as H. unfold no_digit, is_digit_of.
  destruct (tail_of dots un suf) as [|c r]; [exact I|]. cbn in H.
  repeat (destruct H as [<- | H]; [reflexivity|]). contradiction.
Qed.

(* the number itself *)
Definition number (text : name) : Z * name :=
  match text with
  | z :: b :: s => if Ascii.eqb z "0" && Ascii.eqb b "b"
                   then (let '(v, _, r) := lParseBinary 0 false s in (v, r)) else strtoull text
  | _ => strtoull text
  end.
Lemma digit10_not c d : digit c d -> Z.of_nat d < 10 -> c <> "b"%char /\ char_in "xX" c = false.
Proof.
  intros D L. destruct D as [H | H]; do 10 (destruct d as [|d]; [injection H as <-; split; [discriminate | reflexivity]|]); lia.
Qed.
Lemma number_spec s v dots un m suf u n : numeral s v -> ~ leading_zero s -> unit_suffix un m -> type_suffix suf u n -> v < 2 ^ 64 ->
  number (s ++ tail_of dots un suf) = (v, tail_of dots un suf).
Proof.
  intros N Z U T L.
  pose proof (fun b => tail_no_digit b dots _ _ _ _ _ U T) as ND. pose proof (tail_head dots _ _ _ _ _ U T) as TH.
  set (rest := tail_of dots un suf) in *. clearbody rest.
  destruct N as [s v D | x s v X D | s v D].
  - destruct (denotes_cons_nonempty _ _ _ D) as (c & r & d & E & Dc & Lc).
    destruct (Ascii.eqb_spec c "0") as [-> | C].
    + assert (r = []) as -> by (destruct r as [|c' r]; [reflexivity | exfalso; apply Z; exists c', r, v; subst; auto]). subst s.
      assert (v = 0) as ->.
      { inversion D as [c' d' D' | s' v' c' d' H' D' L' E' E2].
        - pose proof (digit_val_spec _ _ D') as Q. cbn in Q. injection Q as Q. lia.
        - exfalso. destruct (denotes_cons_nonempty _ _ _ H') as (? & ? & ? & -> & _ & _).
          apply (f_equal (@List.length ascii)) in E'. rewrite app_length in E'. cbn in E'. lia. }
      cbn [app number]. destruct rest as [|a rest]; [reflexivity|].
      assert (Ascii.eqb a "b" = false /\ char_in "xX" a = false) as [A1 A2].
      { cbn in TH. repeat (destruct TH as [<- | TH]; [split; reflexivity|]). contradiction. }
      rewrite A1. cbn [andb Ascii.eqb Bool.eqb]. unfold strtoull.
      assert (R : run_digits 8 0 ("0"%char :: a :: rest) = (0, a :: rest)).
      { exact (run_stop 8 0 (a :: rest) (ND 8)). }
      destruct rest as [|a' rest]; [|rewrite A2; cbn [andb]]; change (Ascii.eqb "0" "0") with true; cbv iota; cbn [andb]; rewrite R; reflexivity.
    + assert (EQ : number (s ++ rest) = strtoull (s ++ rest)).
      { subst s. cbn [app number]. destruct (r ++ rest); [reflexivity|]. destruct (Ascii.eqb_spec c "0"); [contradiction | reflexivity]. }
      rewrite EQ. unfold strtoull.
      assert (C' : Ascii.eqb c "0" = false) by (destruct (Ascii.eqb_spec c "0"); congruence).
      assert (ST : forall t, (match c :: t with
        | z :: x :: d :: r => if Ascii.eqb z "0" && char_in "xX" x && is_digit_of 16 d then run_digits 16 0 (d :: r)
           else if Ascii.eqb z "0" then run_digits 8 0 (c :: t) else run_digits 10 0 (c :: t)
        | z :: _ => if Ascii.eqb z "0" then run_digits 8 0 (c :: t) else run_digits 10 0 (c :: t)
        | [] => (0, []) end) = run_digits 10 0 (c :: t)).
      { intros t. rewrite C'. cbn [andb]. destruct t as [|? [|? ?]]; reflexivity. }
      rewrite E. cbn [app]. rewrite ST.
      change (c :: r ++ rest) with ((c :: r) ++ rest). rewrite <- E. rewrite (run_denotes _ _ _ _ D (ND 10)).
      rewrite Z.min_l by lia. reflexivity.
  - destruct (denotes_cons_nonempty _ _ _ D) as (c & r & d & E & Dc & Lc).
    assert (Xb : Ascii.eqb x "b" = false /\ char_in "xX" x = true) by (destruct X as [-> | ->]; split; reflexivity).
    destruct Xb as [X1 X2]. cbn [app number]. rewrite X1. change (Ascii.eqb "0" "0") with true. cbn [andb].
    subst s. cbn [app]. unfold strtoull. rewrite X2. change (Ascii.eqb "0" "0") with true. unfold is_digit_of at 1. rewrite (digit_val_spec _ _ Dc).
    apply Z.ltb_lt in Lc. rewrite Lc. cbn [andb]. change (c :: r ++ rest) with ((c :: r) ++ rest).
    rewrite (run_denotes _ _ _ _ D (ND 16)), Z.min_l by lia. reflexivity.
  - cbn [app number]. change (Ascii.eqb "0" "0") with true. change (Ascii.eqb "b" "b") with true. cbn [andb].
    rewrite (binary_denotes _ _ _ D (ND 2)).
    rewrite Z.mod_small; [reflexivity|]. split; [eapply denotes_nonneg; [|exact D]; lia | assumption].
Qed.
Lemma numeral_nonneg s v : numeral s v -> 0 <= v.
Proof. destruct 1; (eapply denotes_nonneg; [|eassumption]; lia). Qed.

Lemma first_holds_holds v l t : first_holds v l t -> holds t v.
Proof. induction 1; assumption. Qed.
Lemma holds_64 t v : holds t v -> v < 2 ^ 64.
Proof. destruct t; cbn [holds]; intros; lia. Qed.
Lemma holds_constant t v : 0 <= v -> holds t v -> constant t v = v.
Proof.
  destruct t; cbn [holds constant]; intros P H; try (apply wrapu_id; unfold in_u; lia);
    (apply wraps_id; [lia|]; unfold in_s; cbn; lia).
Qed.

Ltac ft := match goal with
  | H : first_holds _ [] _ |- _ => inversion H
  | H : first_holds _ (_ :: _) _ |- _ => inversion H; clear H; subst; cbn [holds] in *
  end.
Lemma choose_spec dots width k m g n (u : bool) v t : 0 <= v -> (n <= 2)%nat -> first_holds v (candidates dots width u n) t ->
  (dots = true -> u = false -> n = 0%nat -> ~ (2 ^ 31 <= v < 2 ^ 32)) ->
  choose_token dots width (Suf k m g n (if u then 1 else 0)%nat) v = t.
Proof.
  intros P N H X. unfold choose_token. cbn [LexModel.ls LexModel.us].
  assert (LA : (Z.land v 4294967295 =? v) = (v <? 2 ^ 32)).
  { change 4294967295 with (Z.ones 32). rewrite Z.land_ones by lia.
    destruct (Z.ltb_spec v (2 ^ 32)).
    - rewrite Z.mod_small by lia. apply Z.eqb_refl.
    - apply Z.eqb_neq. pose proof (Z.mod_pos_bound v (2 ^ 32) ltac:(lia)). lia. }
  rewrite LA.
  destruct n as [|[|[|n]]]; [| | |lia]; cbn [Nat.leb Nat.eqb]; unfold candidates in H; destruct u; cbn [negb Nat.eqb].
  2: destruct dots; [specialize (X eq_refl eq_refl eq_refl)|]; destruct (Z.eqb_spec width 8); destruct (Z.eqb_spec width 16); try lia.
  all: try (destruct dots); cbn [andb app] in *;
    repeat match goal with
    | |- context [?a <=? ?b] => destruct (Z.leb_spec a b)
    | |- context [?a <? ?b] => destruct (Z.ltb_spec a b)
    end; repeat ft; try reflexivity; exfalso; lia.
Qed.

Lemma literal_spec dots width s v un m suf u n t :
  numeral s v -> ~ leading_zero s -> unit_suffix un m -> type_suffix suf u n ->
  first_holds (v * m) (candidates dots width u n) t ->
  (dots = true -> u = false -> n = 0%nat -> ~ (2 ^ 31 <= v * m < 2 ^ 32)) ->
  integer_literal dots width (s ++ un ++ suf ++ (if dots then lit "..." else [])) = Some (t, v * m).
Proof.
  intros N Z U T F X. pose proof (numeral_nonneg _ _ N) as P.
  pose proof (first_holds_holds _ _ _ F) as HH. pose proof (holds_64 _ _ HH) as L.
  assert (1 <= m) by (destruct U; lia). assert (v < 2 ^ 64) by nia.
  change (un ++ suf ++ (if dots then lit "..." else [])) with (tail_of dots un suf).
  unfold integer_literal, lParseInteger. fold (number (s ++ tail_of dots un suf)).
  rewrite (number_spec _ _ dots _ _ _ _ _ N Z U T) by assumption.
  destruct (scan_tail dots _ _ _ _ _ U T) as (k & mm & g & -> & _ & V). cbn [LexModel.kilo LexModel.mega LexModel.giga].
  specialize (V v P L). cbv zeta in V. cbv zeta. rewrite V. cbn [option_map fst snd].
  assert (n <= 2)%nat by (destruct T as (? & ? & _ & (_ & ? & _) & _); assumption).
  rewrite (choose_spec dots width k mm g n u _ t) by (auto; nia).
  rewrite holds_constant by (auto; nia). reflexivity.
Qed.

Lemma reduced_constant u n v : (n = 1 \/ n = 2)%nat -> reduced u (snd (asked u n)) v (constant (fst (asked u n)) v).
Proof.
  intros [-> | ->]; destruct u; cbn [asked fst snd constant]; unfold reduced.
  - split; [|apply wrapu_range; lia]. exists (v / 2 ^ 32). unfold wrapu. pose proof (Z.div_mod v (2 ^ 32) ltac:(lia)). lia.
  - split; [|apply wraps_range; lia]. unfold wraps. set (h := 2 ^ (32 - 1)). pose proof (Z.div_mod (v + h) (2 ^ 32) ltac:(lia)). exists ((v + h) / 2 ^ 32). lia.
  - split; [|apply wrapu_range; lia]. exists (v / 2 ^ 64). unfold wrapu. pose proof (Z.div_mod v (2 ^ 64) ltac:(lia)). lia.
  - split; [|apply wraps_range; lia]. unfold wraps. set (h := 2 ^ (64 - 1)). pose proof (Z.div_mod (v + h) (2 ^ 64) ltac:(lia)). exists ((v + h) / 2 ^ 64). lia.
Qed.
Lemma suffix_spec dots width s v un m suf u n : numeral s v -> ~ leading_zero s -> unit_suffix un m -> type_suffix suf u n ->
  n <> 0%nat -> v * m < 2 ^ 64 ->
  exists r, integer_literal dots width (s ++ un ++ suf ++ (if dots then lit "..." else [])) = Some (fst (asked u n), r) /\ reduced u (snd (asked u n)) (v * m) r.
Proof.
  intros N Z U T N0 L. pose proof (numeral_nonneg _ _ N) as P.
  assert (1 <= m) by (destruct U; lia). assert (v < 2 ^ 64) by nia.
  change (un ++ suf ++ (if dots then lit "..." else [])) with (tail_of dots un suf).
  unfold integer_literal, lParseInteger. fold (number (s ++ tail_of dots un suf)).
  rewrite (number_spec _ _ dots _ _ _ _ _ N Z U T) by assumption.
  destruct (scan_tail dots _ _ _ _ _ U T) as (k & mm & g & -> & _ & V). cbn [LexModel.kilo LexModel.mega LexModel.giga].
  specialize (V v P L). cbv zeta in V. cbv zeta. rewrite V. cbn [option_map fst snd].
  assert (N2 : (n <= 2)%nat) by (destruct T as (? & ? & _ & (_ & ? & _) & _); assumption).
  assert (C : choose_token dots width (Suf k mm g n (if u then 1 else 0)%nat) (v * m) = fst (asked u n)).
  { unfold choose_token. cbn [LexModel.ls LexModel.us]. destruct n as [|[|[|n]]]; [congruence| | |lia]; destruct u, dots; reflexivity. }
  rewrite C. eexists. split; [reflexivity|]. apply reduced_constant. lia.
Qed.
