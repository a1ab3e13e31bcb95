From Coq Require Import ZArith List Bool Ascii String Lia.
From Verif Require Import SwizModel SwizSpec.
Import ListNotations.
Local Open Scope Z_scope.

Lemma element_of_named c k : named c k <-> element_of c = Z.of_nat k.
Proof.
  split.
  - intros (s & H & E). cbn in H. destruct H as [<-|[<-|[<-|[]]]]; cbn in E;
      do 5 (destruct k as [|k]; cbn in E; [try discriminate; injection E as <-; reflexivity|]); destruct k; discriminate.
  - intros E. assert (G : forall s, In s names -> nth_error s k = Some c -> named c k) by (intros s H1 H2; now exists s).
    destruct c as [b0 b1 b2 b3 b4 b5 b6 b7].
    destruct b0, b1, b2, b3, b4, b5, b6, b7; cbn in E; try lia;
      match type of E with
      | 0 = _ => assert (k = 0%nat) by lia
      | 1 = _ => assert (k = 1%nat) by lia
      | 2 = _ => assert (k = 2%nat) by lia
      | 3 = _ => assert (k = 3%nat) by lia
      end; subst k;
      solve [apply (G (list_ascii_of_string "xyzw")); [cbn; tauto|reflexivity]
            |apply (G (list_ascii_of_string "rgba")); [cbn; tauto|reflexivity]
            |apply (G (list_ascii_of_string "uv")); [cbn; tauto|reflexivity]].
Qed.

Lemma element_of_range c : -1 <= element_of c <= 3.
Proof.
  destruct c as [b0 b1 b2 b3 b4 b5 b6 b7]. destruct b0, b1, b2, b3, b4, b5, b6, b7; cbn; lia.
Qed.

Lemma vn_expr b : vn (expr_vec b) = vn (vec_of b).
Proof. now destruct b. Qed.

Lemma number_ok b c k : named c k -> (k < vn (vec_of b))%nat -> element_number b c = (Z.of_nat k, false).
Proof.
  intros N L. apply element_of_named in N. unfold element_number. rewrite N, vn_expr.
  destruct (Z.eqb_spec (Z.of_nat k) (-1)); [lia|]. rewrite Z.geb_leb.
  destruct (Z.leb_spec (Z.of_nat (vn (vec_of b))) (Z.of_nat k)); [lia|reflexivity].
Qed.

Lemma number_valid b c : snd (element_number b c) = false -> exists k, named c k /\ (k < vn (vec_of b))%nat.
Proof.
  unfold element_number. rewrite vn_expr. destruct (Z.eqb_spec (element_of c) (-1)); [discriminate|].
  rewrite Z.geb_leb. destruct (Z.leb_spec (Z.of_nat (vn (vec_of b))) (element_of c)); [discriminate|]. intros _.
  pose proof (element_of_range c). exists (Z.to_nat (element_of c)). split; [apply element_of_named|]; lia.
Qed.

Lemma create_valid b id : valid b id -> create b id = true.
Proof.
  intros [N V]. destruct id as [|c id]; [congruence|]. cbn. destruct (V c (or_introl eq_refl)) as (k & H1 & H2).
  now rewrite (number_ok b c k H1 H2).
Qed.

Lemma indices_valid b id : valid b id -> existsb snd (swizzle_indices b id) = false.
Proof.
  intros [_ V]. unfold swizzle_indices. induction id as [|c id IH]; [reflexivity|]. cbn [map existsb].
  destruct (V c (or_introl eq_refl)) as (k & H1 & H2). rewrite (number_ok b c k H1 H2). cbn [snd orb].
  apply IH. intros d Hd. apply V. now right.
Qed.

Lemma nth_error_seq_map {A} (f : nat -> A) W l : (l < W)%nat -> nth_error (map f (seq 0 W)) l = Some (f l).
Proof.
  intros L. rewrite nth_error_map. rewrite (nth_error_nth' _ 0%nat) by now rewrite seq_length.
  cbn. now rewrite seq_nth.
Qed.

Lemma of_temp_ok W t v k l :
  wf W (BTemp t v) -> (k < vn t)%nat -> (l < W)%nat ->
  List.length (of_temp v (Z.of_nat k)) = (if vv t then W else 1%nat) /\
  nth_error (of_temp v (Z.of_nat k)) (if vv t then l else 0%nat) =
    Some (nth_error (nth k v []) (if vv t then l else 0%nat)).
Proof.
  intros [L F] Hk Hl. unfold of_temp. rewrite Nat2Z.id, map_length.
  assert (Le : List.length (nth k v []) = if vv t then W else 1%nat).
  { rewrite Forall_forall in F. apply F. apply nth_In. lia. }
  split; [easy|]. rewrite nth_error_map.
  destruct (nth_error (nth k v []) (if vv t then l else 0%nat)) eqn:E; [reflexivity|].
  apply nth_error_None in E. destruct (vv t); lia.
Qed.

(** One element, loaded after the offset of the element (and of the lane where needed). *)
Lemma load_elem W m mask t p (k : nat) ev :
  (match p with PU _ => ev = vv t | PV _ => vv t = false end) ->
  List.length (load W m mask (add_element_offset W t p (Z.of_nat k)) ev) = (if vv t || is_pv p then W else 1%nat) /\
  forall l, (l < W)%nat -> mask l = true ->
    nth_error (load W m mask (add_element_offset W t p (Z.of_nat k)) ev) (if vv t || is_pv p then l else 0%nat)
      = Some (Some (m (elem_addr W t p k l))).
Proof.
  intros H. unfold elem_addr. destruct p as [a|a]; cbn [add_element_offset load is_pv at_lane].
  - subst ev. rewrite orb_false_r. unfold stride. destruct (vv t).
    + rewrite map_length, seq_length. split; [easy|]. intros l Hl _. rewrite nth_error_seq_map by easy.
      do 3 f_equal; lia.
    + split; [easy|]. intros l Hl _. cbn. do 3 f_equal; lia.
  - rewrite orb_true_r, map_length, seq_length. split; [easy|]. intros l Hl E. rewrite nth_error_seq_map by easy.
    rewrite E, H. unfold stride. do 3 f_equal; lia.
Qed.

Lemma load_single W m mask t p (k : nat) :
  let q := add_varying_offsets (vv t) (add_element_offset W t p (Z.of_nat k)) in
  List.length (load W m mask q (vv t)) = (if vv t || is_pv p then W else 1%nat) /\
  forall l, (l < W)%nat -> mask l = true ->
    nth_error (load W m mask q (vv t)) (if vv t || is_pv p then l else 0%nat)
      = Some (Some (m (elem_addr W t p k l))).
Proof.
  cbv zeta. destruct p as [a|a].
  - now apply (load_elem W m mask t (PU a) k (vv t)).
  - destruct (vv t) eqn:V.
    + unfold elem_addr. cbn [add_element_offset add_varying_offsets load is_pv at_lane]. rewrite V. cbn [orb].
      unfold stride. rewrite map_length, seq_length. split; [easy|].
      intros l Hl E. rewrite nth_error_seq_map by easy. rewrite E. do 3 f_equal; lia.
    + pose proof (load_elem W m mask t (PV a) k false V) as H. now rewrite V in H.
Qed.

Lemma differs_expr b : ~ through_varying b -> vv (expr_vec b) = differs b.
Proof. destruct b as [t [a|a]|t [a|a]|t v]; cbn; intros H; try reflexivity; try tauto. now rewrite orb_false_r. Qed.

Lemma swizzle_elem W m mask b c (k : nat) : wf W b -> ~ through_varying b -> named c k -> (k < vn (vec_of b))%nat ->
  forall r, r = match b with
       | BLval t p | BArrow t p => load W m mask (add_element_offset W t p (fst (element_number b c))) (vv (expr_vec b))
       | BTemp _ v => of_temp v (fst (element_number b c))
       end ->
  List.length r = (if differs b then W else 1%nat) /\
  forall l, (l < W)%nat -> mask l = true ->
    nth_error r (if differs b then l else 0%nat) = Some (sees W m b k l).
Proof.
  intros Wf T N L r ->. rewrite (number_ok b c k N L). cbn [fst].
  destruct b as [t p|t p|t v]; cbn [differs sees vec_of] in *.
  - apply load_elem. destruct p as [a|a]; cbn in *; [apply orb_false_r|]. destruct (vv t); tauto.
  - apply load_elem. destruct p as [a|a]; cbn in *; [easy|tauto].
  - split.
    + destruct Wf as [L' F]. unfold of_temp. rewrite map_length, Nat2Z.id.
      rewrite Forall_forall in F. apply F, nth_In. lia.
    + intros l Hl _. now apply (of_temp_ok W t v k l).
Qed.

Lemma swizzle_ok W m mask b id : wf W b -> valid b id -> ~ through_varying b ->
  exists res, swizzle W m mask b id = Value res /\ is_elements W m mask b id res.
Proof.
  intros Wf V T. unfold swizzle. rewrite indices_valid by easy. cbv zeta.
  set (f := fun ke : Z * bool => match b with
     | BLval t p | BArrow t p => load W m mask (add_element_offset W t p (fst ke)) (vv (expr_vec b))
     | BTemp _ v => of_temp v (fst ke) end).
  assert (F : forallb (fits W b) (map f (swizzle_indices b id)) = true).
  { apply forallb_forall. intros r Hr. unfold swizzle_indices in Hr. rewrite map_map in Hr. apply in_map_iff in Hr as (c & <- & Hc).
    destruct V as [_ V]. destruct (V c Hc) as (k & N & L).
    destruct (swizzle_elem W m mask b c k Wf T N L (f (element_number b c)) eq_refl) as [E _].
    unfold fits. rewrite differs_expr by easy. rewrite E. apply Nat.eqb_refl. }
  rewrite F. eexists. split; [reflexivity|]. unfold swizzle_indices. rewrite map_map. split; [apply map_length|].
  intros i c k Hi N. destruct V as [_ V]. destruct (V c (nth_error_In _ _ Hi)) as (k' & N' & L).
  assert (k' = k) as -> by (apply element_of_named in N, N'; lia).
  assert (Er : nth i (map (fun c => f (element_number b c)) id) [] = f (element_number b c)).
  { apply nth_error_nth. rewrite nth_error_map, Hi. reflexivity. }
  rewrite Er. now apply (swizzle_elem W m mask b c k Wf T N' L).
Qed.

Lemma single_ok W m mask b c : wf W b -> valid b [c] ->
  exists res, single W m mask b c = Value res /\ is_elements W m mask b [c] res.
Proof.
  intros Wf [_ V]. destruct (V c (or_introl eq_refl)) as (k & N & L). unfold single, get_lvalue.
  rewrite (number_ok b c k N L). cbn [fst snd].
  assert (K : (Z.of_nat k =? -1) = false) by (apply Z.eqb_neq; lia). rewrite K.
  assert (G : forall r, (List.length r = (if differs b then W else 1%nat) /\
       forall l, (l < W)%nat -> mask l = true -> nth_error r (if differs b then l else 0%nat) = Some (sees W m b k l)) ->
       is_elements W m mask b [c] [r]).
  { intros r H. split; [reflexivity|]. intros i c' k' Hi N'. destruct i; [|destruct i; discriminate].
    injection Hi as <-. assert (k' = k) as -> by (apply element_of_named in N, N'; lia). exact H. }
  destruct b as [t p|t p|t v]; eexists; (split; [reflexivity|]); apply G; cbn [differs sees vec_of] in *.
  - apply load_single.
  - apply load_single.
  - split.
    + destruct Wf as [L' F]. unfold of_temp. rewrite map_length, Nat2Z.id.
      rewrite Forall_forall in F. apply F, nth_In. lia.
    + intros l Hl _. now apply (of_temp_ok W t v k l).
Qed.


Lemma upd_fold mask (addr x : nat -> Z) : forall ls m a,
  (forall l, In l ls -> mask l = true -> addr l <> a) ->
  fold_left (fun m l => if mask l then upd m (addr l) (x l) else m) ls m a = m a.
Proof.
  induction ls as [|l ls IH]; intros m a H; [reflexivity|]. cbn [fold_left]. rewrite IH by (intros; apply H; [now right|easy]).
  destruct (mask l) eqn:E; [|reflexivity]. unfold upd. destruct (Z.eqb_spec a (addr l)); [|reflexivity].
  now destruct (H l (or_introl eq_refl) E).
Qed.

Lemma upd_fold_at mask (addr x : nat -> Z) : forall ls m l,
  NoDup ls -> In l ls -> mask l = true ->
  (forall l', In l' ls -> mask l' = true -> addr l' = addr l -> l' = l) ->
  fold_left (fun m l => if mask l then upd m (addr l) (x l) else m) ls m (addr l) = x l.
Proof.
  induction ls as [|i ls IH]; intros m l N Hl E D; [destruct Hl|]. inversion N as [|? ? N1 N2]; subst. cbn [fold_left].
  destruct Hl as [->|Hl].
  - rewrite upd_fold.
    + rewrite E. unfold upd. now rewrite Z.eqb_refl.
    + intros l' H1 H2 H3. apply N1. now rewrite <- (D l' (or_intror H1) H2 H3).
  - apply IH; [easy..|]. intros l' H. apply D. now right.
Qed.
