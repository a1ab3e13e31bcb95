From Coq Require Import ZArith NArith Bool Ascii String DecimalString DecimalN Decimal Lia List.
From Verif Require Import TypesModel TypesSpec.
Import ListNotations.

(** ** Strings *)

Definition is_digit (c : ascii) : Prop := In c (lit "0123456789").

Lemma lit_inj a b : lit a = lit b -> a = b.
Proof. unfold lit. intros H. apply (f_equal string_of_list_ascii) in H. now rewrite !string_of_list_ascii_of_string in H. Qed.

Lemma uint_digits d : Forall is_digit (lit (NilEmpty.string_of_uint d)).
Proof.
  induction d; cbn; constructor; auto; unfold is_digit; cbn; tauto.
Qed.

Lemma digits_digits n : Forall is_digit (digits n).
Proof. apply uint_digits. Qed.

Lemma digits_inj m n : digits m = digits n -> m = n.
Proof.
  intros H. apply lit_inj in H. apply (f_equal NilEmpty.uint_of_string) in H. rewrite !NilEmpty.usu in H.
  injection H as H. now apply DecimalN.Unsigned.to_uint_inj.
Qed.

Lemma digits_nonempty n : digits n <> [].
Proof.
  intros H. change [] with (lit "") in H. apply lit_inj in H. apply (f_equal NilEmpty.uint_of_string) in H.
  rewrite NilEmpty.usu in H. cbn in H. injection H as H. pose proof (f_equal N.of_uint H) as Q.
  rewrite DecimalN.Unsigned.of_to in Q. cbn in Q. subst n. discriminate H.
Qed.

(* a run of digits ends where the first other character is *)
Lemma run_inj a b x y : Forall is_digit a -> Forall is_digit b ->
  (forall c r, x = c :: r -> ~ is_digit c) -> (forall c r, y = c :: r -> ~ is_digit c) ->
  a ++ x = b ++ y -> a = b /\ x = y.
Proof.
  intros Ha. revert b. induction Ha as [|c a Hc Ha IH]; intros b Hb Hx Hy E.
  - destruct b as [|d b]; [auto|]. cbn in E. inversion Hb; subst. exfalso. eapply Hx; [reflexivity|assumption].
  - destruct b as [|d b]; cbn in E.
    + subst y. exfalso. eapply Hy; [reflexivity|assumption].
    + injection E as -> E. inversion Hb; subst. destruct (IH b) as [-> ->]; auto.
Qed.

Lemma digits_run m n x y c d r s : x = c :: r -> y = d :: s -> ~ is_digit c -> ~ is_digit d ->
  digits m ++ x = digits n ++ y -> m = n /\ x = y.
Proof.
  intros -> -> Hc Hd E. apply run_inj in E; try apply digits_digits.
  - destruct E as [E1 E2]. apply digits_inj in E1. auto.
  - intros ? ? [= -> _]. exact Hc.
  - intros ? ? [= -> _]. exact Hd.
Qed.

Lemma not_digit c : existsb (Ascii.eqb c) (lit "0123456789") = false -> ~ is_digit c.
Proof.
  intros H I. enough (existsb (Ascii.eqb c) (lit "0123456789") = true) by congruence.
  apply existsb_exists. exists c. split; [exact I|apply Ascii.eqb_refl].
Qed.

Lemma mangle_var_inj v w x y : mangle_var v ++ x = mangle_var w ++ y -> v = w /\ x = y.
Proof.
  destruct v as [| |m], w as [| |n]; cbn; intros E; try discriminate E; try (injection E as E; auto).
  rewrite <- !app_assoc in E. apply (digits_run m n (lit ">" ++ x) (lit ">" ++ y) ">"%char ">"%char x y) in E;
    try reflexivity; try (now apply not_digit).
  destruct E as [-> E]. injection E as ->. auto.
Qed.

Lemma mangle_basic_inj a b x y : mangle_basic a ++ x = mangle_basic b ++ y -> a = b /\ x = y.
Proof. destruct a, b; cbn; intros E; try discriminate E; injection E as E; auto. Qed.

(* names end at the first "_5D_" *)
Lemma name_inj a b x y : plain_name a -> plain_name b -> a ++ lit "_5D_" ++ x = b ++ lit "_5D_" ++ y -> a = b /\ x = y.
Proof.
  assert (Q : forall b x y, plain_name b -> lit "_5D_" ++ x = b ++ lit "_5D_" ++ y -> b = [] /\ x = y).
  { clear. intros b x y Hb E. unfold plain_name in Hb. destruct b as [|b1 b]; [injection E as ->; auto|exfalso].
    cbn in E. destruct b as [|b2 b]; [discriminate E|]. destruct b as [|b3 b]; [discriminate E|].
    injection E as <- <- <- _. discriminate Hb. }
  unfold plain_name. revert b. induction a as [|c a IH]; intros b Ha Hb E.
  - destruct (Q b x y Hb E) as [-> ->]. auto.
  - destruct b as [|d b].
    + symmetry in E. destruct (Q (c :: a) y x Ha E) as [X _]. discriminate X.
    + cbn in E. injection E as -> E. destruct (IH b) as [-> ->]; auto.
      * cbn [contains] in Ha. now apply orb_false_iff in Ha.
      * cbn [contains] in Hb. now apply orb_false_iff in Hb.
Qed.

(** ** Types as a core and a list of suffixes *)

Inductive suffix := SArray (n : N) | SVector (n : N).
Definition mangle_suffix (s : suffix) : name :=
  match s with
  | SArray n => lit "_5B_" ++ (if N.ltb 0 n then digits n else []) ++ lit "_5D_"
  | SVector n => lit "_3C_" ++ digits n ++ lit "_3E_"
  end.
Fixpoint core (t : ty) : ty := match t with Array b _ | Vector b _ => core b | _ => t end.
Fixpoint suffixes (t : ty) : list suffix :=
  match t with
  | Array b n => suffixes b ++ [SArray n]
  | Vector b n => suffixes b ++ [SVector n]
  | _ => []
  end.

Definition stop (r : name) : Prop := starts (lit "_5B_") r = false /\ starts (lit "_3C_") r = false.

Section Mangle.
Variable en : nat -> name.
Local Notation mg := (mangle en).

Lemma mangle_core t : mg t = mg (core t) ++ flat_map mangle_suffix (suffixes t).
Proof.
  induction t; cbn [core suffixes]; try (now rewrite app_nil_r); rewrite flat_map_app;
    cbn [flat_map mangle]; rewrite app_nil_r, IHt at 1; cbn [mangle_suffix]; now rewrite <- !app_assoc.
Qed.

Lemma suffix_inj s1 : forall s2 r1 r2, stop r1 -> stop r2 ->
  flat_map mangle_suffix s1 ++ r1 = flat_map mangle_suffix s2 ++ r2 -> s1 = s2 /\ r1 = r2.
Proof.
  assert (N : forall s r x, stop (mangle_suffix s ++ r) -> x = s -> False).
  { intros [n|n] r x [A B] _; [cbn in A; discriminate A|cbn in B; discriminate B]. }
  assert (U : ~ is_digit "_") by now apply not_digit.
  induction s1 as [|a s1 IH]; intros [|b s2] r1 r2 H1 H2 E; cbn [flat_map app] in E.
  - auto.
  - rewrite <- app_assoc in E. subst r1. now apply N with (x := b) in H1.
  - rewrite <- app_assoc in E. subst r2. now apply N with (x := a) in H2.
  - rewrite <- !app_assoc in E. destruct a as [m|m], b as [n|n]; cbn [mangle_suffix] in E; rewrite <- !app_assoc in E; try discriminate E.
    + apply app_inv_head in E.
      assert (X : m = n /\ lit "_5D_" ++ flat_map mangle_suffix s1 ++ r1 = lit "_5D_" ++ flat_map mangle_suffix s2 ++ r2).
      { destruct (N.ltb_spec 0 m), (N.ltb_spec 0 n).
        - eapply digits_run in E; eauto; reflexivity.
        - exfalso. pose proof (digits_digits m) as D. destruct (digits m) as [|c d] eqn:Dm; [now apply digits_nonempty in Dm|].
          inversion D; subst. cbn in E. injection E as -> _. auto.
        - exfalso. pose proof (digits_digits n) as D. destruct (digits n) as [|c d] eqn:Dm; [now apply digits_nonempty in Dm|].
          inversion D; subst. cbn in E. injection E as <- _. auto.
        - split; [lia|exact E]. }
      destruct X as [-> X]. apply app_inv_head in X. destruct (IH s2 r1 r2) as [-> ->]; auto.
    + apply app_inv_head in E. eapply digits_run in E; eauto; try reflexivity.
      destruct E as [-> E]. apply app_inv_head in E. destruct (IH s2 r1 r2) as [-> ->]; auto.
Qed.

Fixpoint size (t : ty) : nat :=
  match t with
  | Atomic _ _ _ | Enum _ _ _ | Struct _ _ _ => 1
  | Pointer _ _ _ _ _ b | Array b _ | Vector b _ | Ref _ b => S (size b)
  | Func r ps _ => S (list_sum (map size ps))
  end.

Lemma size_core t : size (core t) <= size t.
Proof. induction t; cbn [core size]; lia. Qed.

(* relations *)
Fixpoint all_legal (l : list ty) : Prop := match l with [] => True | x :: l => legal en x /\ all_legal l end.
Fixpoint all_alike (l m : list ty) : Prop :=
  match l, m with
  | [], [] => True
  | x :: l, y :: m => alike en x y /\ all_alike l m
  | _, _ => False
  end.

Lemma legal_pointer v c s f p b : legal en (Pointer v c s f p b) ->
  match b with Ref _ _ => False | Func _ ps _ => all_legal ps | _ => legal en b end.
Proof.
  destruct b; cbn; auto.
Qed.

Lemma alike_func r ps f r' ps' f' : f_unmasked f = f_unmasked f' -> all_alike ps ps' -> alike en (Func r ps f) (Func r' ps' f').
Proof.
  intros F H. cbn. split; [exact F|]. revert ps' H. induction ps as [|x ps IH]; intros [|y ps'] H; cbn in *; tauto.
Qed.

Lemma legal_core t : legal en t -> legal en (core t) /\ (suffixes t <> [] -> forall p x, core t <> Ref p x) /\ (forall r p f, core t <> Func r p f).
Proof.
  induction t; cbn [core suffixes]; intros L; try (split; [exact L|split; [congruence|discriminate]]).
  - cbn in L. destruct t; try contradiction; cbn [core] in *; try (destruct (IHt L) as (A & B & C); repeat split; auto; cbn in *; intros; congruence).
    + destruct (IHt L) as (A & B & C). cbn [suffixes] in *. split; [exact A|]. split; [|exact C].
      intros _. apply B. destruct (suffixes t); discriminate.
    + destruct (IHt L) as (A & B & C). cbn [suffixes] in *. split; [exact A|]. split; [|exact C].
      intros _. apply B. destruct (suffixes t); discriminate.
  - cbn in L. destruct t; try contradiction. cbn. repeat split; intros; discriminate.
  - contradiction.
Qed.

Lemma alike_core t t' : alike en (core t) (core t') -> suffixes t = suffixes t' -> alike en t t'.
Proof.
  revert t'. induction t; intros t' A S.
  all: try (destruct t'; cbn [suffixes core] in *; try exact A;
            try (now destruct (suffixes t'))).
  all: try (destruct (suffixes t); discriminate S).
  all: cbn [suffixes] in S; destruct t'; cbn [suffixes core] in *;
       try (destruct (suffixes t); discriminate S); apply app_inj_tail in S as [S S']; try discriminate S';
       injection S' as ->; cbn [alike]; auto.
Qed.

Lemma starts_letter t : legal en t -> exists c r, mg t = c :: r /\ In c (lit "CuvsR").
Proof.
  intros L. rewrite mangle_core. destruct (legal_core t L) as (LC & _ & NF).
  assert (X : exists c r, mg (core t) = c :: r /\ In c (lit "CuvsR")).
  { assert (Y : forall c r, In c (lit "CuvsR") -> exists c' r', c :: r = c' :: r' /\ In c' (lit "CuvsR")) by eauto.
    destruct (core t) as [v c b|v c i|v c s f p b|b n|b n|v c s|p b|r0 ps f] eqn:K.
    - destruct c, v; apply Y; cbn; tauto.
    - destruct c, v; apply Y; cbn; tauto.
    - destruct v; apply Y; cbn; tauto.
    - exfalso. clear - K. induction t; cbn in K; try discriminate K; auto.
    - exfalso. clear - K. induction t; cbn in K; try discriminate K; auto.
    - apply Y; cbn; tauto.
    - apply Y; cbn; tauto.
    - now destruct (NF r0 ps f). }
  destruct X as (c & r & -> & I). cbn. eauto.
Qed.

Lemma letter_stop c r : In c (lit "CuvsR") -> stop (c :: r).
Proof. cbn. intros H. decompose [or] H; subst; try contradiction; split; reflexivity. Qed.

(* what may follow a list of types *)
Definition ends (r : name) : Prop := stop r /\ forall c x, r = c :: x -> ~ In c (lit "CuvsR").

Definition Inj (t1 : ty) : Prop := forall t2 r1 r2, legal en t1 -> legal en t2 -> stop r1 -> stop r2 ->
  mg t1 ++ r1 = mg t2 ++ r2 -> alike en t1 t2 /\ r1 = r2.

Lemma list_inj l1 : (forall t, In t l1 -> Inj t) -> forall l2 r1 r2, all_legal l1 -> all_legal l2 -> ends r1 -> ends r2 ->
  flat_map mg l1 ++ r1 = flat_map mg l2 ++ r2 -> all_alike l1 l2 /\ r1 = r2.
Proof.
  intros HI. assert (ST : forall l r, all_legal l -> ends r -> stop (flat_map mg l ++ r)).
  { intros [|t l] r L [E _]; [exact E|]. destruct L as [L _]. destruct (starts_letter t L) as (c & x & Ec & I).
    cbn [flat_map]. rewrite Ec. cbn. now apply letter_stop. }
  induction l1 as [|t l1 IH]; intros [|u l2] r1 r2 L1 L2 E1 E2 E; cbn [flat_map app] in E.
  - cbn. auto.
  - exfalso. destruct L2 as [L2 _]. destruct (starts_letter u L2) as (c & x & Ec & I). rewrite Ec in E. cbn in E.
    destruct E1 as [_ X]. apply (X c _ E I).
  - exfalso. destruct L1 as [L1 _]. destruct (starts_letter t L1) as (c & x & Ec & I). rewrite Ec in E. cbn in E.
    symmetry in E. destruct E2 as [_ X]. apply (X c _ E I).
  - rewrite <- !app_assoc in E. destruct L1 as [L1 L1']. destruct L2 as [L2 L2'].
    destruct (HI t (or_introl eq_refl) u _ _ L1 L2 (ST l1 r1 L1' E1) (ST l2 r2 L2' E2) E) as [A E'].
    destruct (IH (fun t I => HI t (or_intror I)) l2 r1 r2 L1' L2' E1 E2 E') as [B ->].
    cbn. auto.
Qed.

Lemma ends_3E r : ends (lit "_3E_" ++ r).
Proof.
  split; [split; reflexivity|]. intros c x [= <- _]. cbn. intuition discriminate.
Qed.

Lemma core_fix t : core t = t \/ (exists b n, t = Array b n) \/ (exists b n, t = Vector b n).
Proof. destruct t; cbn; eauto. Qed.

Lemma core_idem t : core (core t) = core t.
Proof. induction t; cbn; auto. Qed.
Lemma suffixes_core t : suffixes (core t) = [].
Proof. induction t; cbn; auto. Qed.

(* cores: what follows is free, except after a reference *)
Lemma core_inj n : (forall t, size t < n -> Inj t) -> forall t1 t2 r1 r2, size t1 <= n ->
  core t1 = t1 -> core t2 = t2 -> legal en t1 -> legal en t2 ->
  ((exists p x, t1 = Ref p x) -> stop r1) -> ((exists p x, t2 = Ref p x) -> stop r2) ->
  mg t1 ++ r1 = mg t2 ++ r2 -> alike en t1 t2 /\ r1 = r2.
Proof.
  intros IH t1 t2 r1 r2 SZ C1 C2 L1 L2 S1 S2 E.
  destruct t1 as [v1 c1 b1|v1 c1 i1|v1 c1 s1 f1 p1 x1|x1 n1|x1 n1|v1 c1 s1|p1 x1|? ? ?];
    try (now cbn in L1); try (cbn in C1; apply (f_equal size) in C1; pose proof (size_core x1); cbn in C1; lia);
  destruct t2 as [v2 c2 b2|v2 c2 i2|v2 c2 s2 f2 p2 x2|x2 n2|x2 n2|v2 c2 s2|p2 x2|? ? ?];
    try (now cbn in L2); try (cbn in C2; apply (f_equal size) in C2; pose proof (size_core x2); cbn in C2; lia);
    cbn [mangle] in E; rewrite <- ?app_assoc in E.
  (* atomic first *)
  - destruct c1, c2; cbn [lit list_ascii_of_string app] in E; try (destruct v2; discriminate E); try (destruct v1; discriminate E).
    + injection E as E. apply mangle_var_inj in E as [-> E]. apply mangle_basic_inj in E as [-> ->]. cbn. auto.
    + apply mangle_var_inj in E as [-> E]. apply mangle_basic_inj in E as [-> ->]. cbn. auto.
  - exfalso. destruct c1, c2; cbn [lit list_ascii_of_string app] in E; try (destruct v2; discriminate E); try (destruct v1; discriminate E).
    + injection E as E. apply mangle_var_inj in E as [-> E]. destruct b1; discriminate E.
    + apply mangle_var_inj in E as [-> E]. destruct b1; discriminate E.
  - exfalso. destruct c1; cbn [lit list_ascii_of_string app] in E; try (destruct v2; discriminate E).
    apply mangle_var_inj in E as [-> E]. destruct b1; discriminate E.
  - exfalso. destruct c1, v1; try discriminate E. 
  - exfalso. destruct c1, v1; discriminate E.
  (* enum first *)
  - exfalso. destruct c1, c2; cbn [lit list_ascii_of_string app] in E; try (destruct v2; discriminate E); try (destruct v1; discriminate E).
    + injection E as E. apply mangle_var_inj in E as [-> E]. destruct b2; discriminate E.
    + apply mangle_var_inj in E as [-> E]. destruct b2; discriminate E.
  - destruct c1, c2; cbn [lit list_ascii_of_string app] in E; try (destruct v2; discriminate E); try (destruct v1; discriminate E).
    + injection E as E. apply mangle_var_inj in E as [-> E]. injection E as E. apply (name_inj (en i1) (en i2)) in E as [A ->]; auto.
      cbn. auto.
    + apply mangle_var_inj in E as [-> E]. injection E as E. apply (name_inj (en i1) (en i2)) in E as [A ->]; auto.
      cbn. auto.
  - exfalso. destruct c1; cbn [lit list_ascii_of_string app] in E; try (destruct v2; discriminate E).
    apply mangle_var_inj in E as [-> E]. discriminate E.
  - exfalso. destruct c1, v1; discriminate E.
  - exfalso. destruct c1, v1; discriminate E.
  (* pointer first *)
  - exfalso. destruct c2; cbn [lit list_ascii_of_string app] in E; try (destruct v1; discriminate E).
    apply mangle_var_inj in E as [-> E]. destruct b2; discriminate E.
  - exfalso. destruct c2; cbn [lit list_ascii_of_string app] in E; try (destruct v1; discriminate E).
    apply mangle_var_inj in E as [-> E]. discriminate E.
  - apply mangle_var_inj in E as [-> E]. apply app_inv_head in E.
    apply legal_pointer in L1. apply legal_pointer in L2.
    (* the pointee's first character *)
    assert (FC : forall x r, match x with Ref _ _ => False | Func _ ps _ => all_legal ps | _ => legal en x end ->
              exists c y, mg x ++ r = c :: y /\ In c (lit "CuvsR_")).
    { clear. intros x r L. assert (D : (exists a b c, x = Func a b c) \/ legal en x) by (destruct x; eauto; contradiction).
      destruct D as [(a & b & c & ->)|D]; [cbn; eauto 10|]. destruct (starts_letter x D) as (c & y & -> & I). cbn. do 2 eexists.
      split; [reflexivity|]. cbn in I |- *. tauto. }
    assert (PT : s1 = s2 /\ f1 = f2 /\ mg x1 ++ lit "_3E_" ++ r1 = mg x2 ++ lit "_3E_" ++ r2).
    { destruct (FC x1 (lit "_3E_" ++ r1) L1) as (ca & ya & Ea & Ia). destruct (FC x2 (lit "_3E_" ++ r2) L2) as (cb & yb & Eb & Ib).
      rewrite Ea, Eb in *. clear - E Ia Ib.
      destruct s1, f1, s2, f2; cbn in E;
        try (repeat split; injection E as -> ->; reflexivity); exfalso; cbn in Ia, Ib;
        decompose [or] Ia; decompose [or] Ib; subst; try contradiction; discriminate E. }
    destruct PT as (-> & -> & E'). clear E.
    assert (D1 : (exists a b c, x1 = Func a b c) \/ legal en x1) by (destruct x1; eauto; contradiction).
    assert (D2 : (exists a b c, x2 = Func a b c) \/ legal en x2) by (destruct x2; eauto; contradiction).
    destruct D1 as [(ra & pa & fa & ->)|D1], D2 as [(rb & pb & fb & ->)|D2].
    + cbn [mangle] in E'. rewrite <- !app_assoc in E'. apply app_inv_head in E'.
      assert (FL : forall ps r, all_legal ps -> exists c y, flat_map mg ps ++ lit "_3E_" ++ r = c :: y /\ In c (lit "CuvsR_")).
      { clear. intros [|p ps] r L; [cbn; eauto 10|]. destruct L as [L _]. destruct (starts_letter p L) as (c & y & Ec & I).
        cbn [flat_map]. rewrite Ec. cbn. do 2 eexists. split; [reflexivity|]. cbn in I |- *. tauto. }
      assert (UM : f_unmasked fa = f_unmasked fb /\ flat_map mg pa ++ lit "_3E_" ++ r1 = flat_map mg pb ++ lit "_3E_" ++ r2).
      { destruct (FL pa r1 L1) as (ca & ya & Ea & Ia). destruct (FL pb r2 L2) as (cb & yb & Eb & Ib). rewrite Ea, Eb in *.
        clear - E' Ia Ib. destruct (f_unmasked fa), (f_unmasked fb); cbn in E'.
        - injection E' as -> ->. auto.
        - exfalso. cbn in Ib. decompose [or] Ib; subst; try contradiction; discriminate E'.
        - exfalso. cbn in Ia. decompose [or] Ia; subst; try contradiction; discriminate E'.
        - injection E' as -> ->. auto. }
      destruct UM as [UM E]. apply list_inj in E; auto using ends_3E.
      * destruct E as [A E]. injection E as ->. split; [|reflexivity].
        split; [reflexivity|]. split; [reflexivity|]. split; [reflexivity|]. now apply alike_func.
      * intros t I. apply IH. clear - SZ I. cbn [size] in SZ. assert (size t <= list_sum (map size pa)).
        { clear SZ. induction pa as [|a pa IHp]; [destruct I|]. cbn [map]. change (list_sum (size a :: map size pa)) with (size a + list_sum (map size pa)). destruct I as [->|I]; [lia|]. specialize (IHp I). lia. }
        lia.
    + exfalso. destruct (starts_letter x2 D2) as (c & y & Ec & I). rewrite Ec in E'. cbn in E'. cbn in I.
      decompose [or] I; subst; try contradiction; discriminate E'.
    + exfalso. destruct (starts_letter x1 D1) as (c & y & Ec & I). rewrite Ec in E'. cbn in E'. cbn in I.
      decompose [or] I; subst; try contradiction; discriminate E'.
    + apply IH in E'; auto; try (split; reflexivity).
      destruct E' as [A E]. injection E as ->. cbn. auto.
  - exfalso. destruct v1; discriminate E.
  - exfalso. destruct v1; discriminate E.
  (* struct first *)
  - exfalso. destruct c2, v2; discriminate E.
  - exfalso. destruct c2, v2; discriminate E.
  - exfalso. destruct v2; discriminate E.
  - apply app_inv_head in E. destruct c1, c2; cbn [lit list_ascii_of_string app] in E; try (destruct v2; discriminate E); try (destruct v1; discriminate E).
    + injection E as E. apply mangle_var_inj in E as [-> E]. apply (name_inj s1 s2) in E as [-> ->]; auto. cbn. auto.
    + apply mangle_var_inj in E as [-> E]. apply (name_inj s1 s2) in E as [-> ->]; auto. cbn. auto.
  (* reference first *)
  - exfalso. destruct c2, v2; discriminate E.
  - exfalso. destruct c2, v2; discriminate E.
  - exfalso. destruct v2; discriminate E.
  - apply app_inv_head in E. apply IH in E.
    + destruct E as [A ->]. cbn. auto.
    + cbn [size] in SZ. lia.
    + cbn in L1. destruct x1; auto; contradiction.
    + cbn in L2. destruct x2; auto; contradiction.
    + eauto.
    + eauto.
Qed.

Lemma mangle_inj n : forall t, size t < n -> Inj t.
Proof.
  induction n as [|n IH]; intros t SZ; [lia|]. intros t2 r1 r2 L1 L2 S1 S2 E.
  rewrite (mangle_core t), (mangle_core t2), <- !app_assoc in E.
  destruct (legal_core t L1) as (LC1 & R1 & _). destruct (legal_core t2 L2) as (LC2 & R2 & _).
  apply (core_inj n IH) in E; auto using core_idem.
  - destruct E as [A E]. apply suffix_inj in E as [E ->]; auto. split; [|reflexivity]. now apply alike_core.
  - pose proof (size_core t). lia.
  - intros (p & x & K). destruct (suffixes t) eqn:Q; [exact S1|]. now destruct (R1 ltac:(discriminate) p x).
  - intros (p & x & K). destruct (suffixes t2) eqn:Q; [exact S2|]. now destruct (R2 ltac:(discriminate) p x).
Qed.

Lemma params_inj l1 l2 r1 r2 : all_legal l1 -> all_legal l2 -> ends r1 -> ends r2 ->
  flat_map mg l1 ++ r1 = flat_map mg l2 ++ r2 -> all_alike l1 l2 /\ r1 = r2.
Proof. apply list_inj. intros t _. exact (mangle_inj _ t (Nat.lt_succ_diag_r _)). Qed.
End Mangle.
