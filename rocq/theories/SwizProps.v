(** Property C78: the named elements of short vectors. *)
From Coq Require Import ZArith List Bool Ascii String Lia.
From Verif Require Import SwizModel SwizSpec SwizProofs.
Import ListNotations.
Local Open Scope Z_scope.

(** v.x, p->y, a[i].z ...: each program instance that is on gets the named element of the vector it sees,
    whatever way it is reached, and the type says that there is one value for each. *)
Theorem C78_element_read W m mask b c : wf W b -> valid b [c] ->
  exists res, get_value W m mask b [c] = Value res /\ is_elements W m mask b [c] res /\
    member_type b [c] = VT 1 (differs b).
Proof.
  intros Wf V. unfold get_value. rewrite create_valid by easy.
  destruct (single_ok W m mask b c Wf V) as (res & E & H). exists res. split; [easy|]. split; [easy|].
  destruct b as [t [a|a]|t [a|a]|t v]; cbn; rewrite ?orb_true_r, ?orb_false_r; reflexivity.
Qed.

(** Swizzles give the vector of the named elements in the order of the letters, with any number of letters
    and any of them repeated, for vectors that are not reached through a varying pointer in the ways of the
    two refutations below (missing for the full property). *)
Theorem C78_swizzle_partial W m mask b id : wf W b -> valid b id -> ~ through_varying b ->
  exists res, get_value W m mask b id = Value res /\ is_elements W m mask b id res /\
    member_type b id = VT (List.length id) (differs b).
Proof.
  intros Wf V T. destruct id as [|c [|d id]].
  - now destruct V.
  - now apply C78_element_read.
  - unfold get_value. rewrite create_valid by easy. destruct (swizzle_ok W m mask b (c :: d :: id) Wf V T) as (res & E & H).
    exists res. split; [easy|]. split; [easy|]. rewrite <- (differs_expr b T). reflexivity.
Qed.

Definition str := list_ascii_of_string.

(** An array of ten varying float<3> at address 0 in a gang of 4, indexed with different indices: a[i]. *)
Definition gang4 (i : nat -> Z) : base := BLval (VT 3 true) (PV (fun l => 12 * i l)).
Definition cells : memory := fun a => a.

Example C78_ok : exists res,
  get_value 4 cells (fun _ => true) (BLval (VT 3 false) (PV (fun l => 3 * Z.of_nat l))) (str "zzx") = Value res /\
  res = [[Some 2; Some 5; Some 8; Some 11]; [Some 2; Some 5; Some 8; Some 11]; [Some 0; Some 3; Some 6; Some 9]].
Proof. eexists. split; reflexivity. Qed.
Example C78_ok_meets : wf 4 (BLval (VT 3 false) (PV (fun l => 3 * Z.of_nat l))) /\
  valid (BLval (VT 3 false) (PV (fun l => 3 * Z.of_nat l))) (str "zzx") /\
  ~ through_varying (BLval (VT 3 false) (PV (fun l => 3 * Z.of_nat l))).
Proof.
  split; [exact I|split; [split; [discriminate|]|discriminate]]. intros c [<-|[<-|[<-|[]]]].
  1,2: exists 2%nat. 3: exists 0%nat. all: split; [now apply element_of_named|cbn; lia].
Qed.

(** The code for a swizzle leaves out the offset of the lanes that the code for single elements adds: a[i].yx of
    an array of varying vectors gives every program instance the elements of the first one, where a[i].y and
    a[i].x give it its own. *)
Theorem C78_swizzle_lanes_refuted :
  exists b, wf 4 b /\ valid b (str "yx") /\
    get_value 4 cells (fun _ => true) b (str "yx") = Value [[Some 4; Some 4; Some 4; Some 4]; [Some 0; Some 0; Some 0; Some 0]] /\
    get_value 4 cells (fun _ => true) b (str "y") = Value [[Some 4; Some 5; Some 6; Some 7]] /\
    (forall l, (l < 4)%nat -> sees 4 cells b 1 l = Some (4 + Z.of_nat l)).
Proof.
  exists (gang4 (fun _ => 0)). split; [exact I|]. split; [|split; [reflexivity|split; [reflexivity|]]].
  - split; [discriminate|]. intros c [<-|[<-|[]]]; [exists 1%nat|exists 0%nat];
      (split; [now apply element_of_named|cbn; lia]).
  - intros l Hl. cbn [sees gang4]. unfold cells, elem_addr, at_lane, vv. f_equal. lia.
Qed.

(** p->zyx of a varying pointer to a uniform vector has a uniform type, although the program instances see
    different vectors and p->z is varying, and its code writes the values of all of them to a temporary that
    has room for one. *)
Theorem C78_swizzle_arrow_refuted :
  exists b, wf 4 b /\ valid b (str "zyx") /\ differs b = true /\
    member_type b (str "zyx") = VT 3 false /\ member_type b (str "z") = VT 1 true /\
    forall m mask, get_value 4 m mask b (str "zyx") = Overrun.
Proof.
  exists (BArrow (VT 3 false) (PV (fun l => 3 * Z.of_nat l))).
  split; [exact I|]. split; [|repeat split].
  split; [discriminate|]. intros c [<-|[<-|[<-|[]]]]; [exists 2%nat|exists 1%nat|exists 0%nat];
    (split; [now apply element_of_named|cbn; lia]).
Qed.

(** Code that uses the value is rejected if and only if a letter names no element or one the vector does not
    have. *)
Theorem C78_rejected W m mask b id : id <> [] -> (get_value W m mask b id = Error <-> ~ valid b id).
Proof.
  intros Ne. split.
  - intros E V. destruct id as [|c [|d id]]; [now destruct V|..].
    + unfold get_value in E. rewrite create_valid in E by easy. unfold single, get_lvalue in E.
      destruct V as [_ V]. destruct (V c (or_introl eq_refl)) as (k & N & L). rewrite (number_ok b c k N L) in E.
      cbn [fst snd] in E. assert (K : (Z.of_nat k =? -1) = false) by (apply Z.eqb_neq; lia). rewrite K in E.
      destruct b; discriminate.
    + unfold get_value in E. rewrite create_valid in E by easy. unfold swizzle in E. rewrite indices_valid in E by easy.
      cbv zeta in E. destruct (forallb _ _) in E; discriminate.
  - intros V. unfold get_value. destruct (create b id) eqn:C; [|reflexivity].
    destruct id as [|c [|d id]]; [easy|..].
    + unfold single. destruct (snd (element_number b c)) eqn:S; [reflexivity|]. destruct V. split; [easy|].
      intros c' [<-|[]]. now apply number_valid.
    + unfold swizzle. destruct (existsb snd _) eqn:S; [reflexivity|]. destruct V. split; [easy|].
      intros c' Hc. apply number_valid. unfold swizzle_indices in S.
      destruct (snd (element_number b c')) eqn:E; [|reflexivity].
      assert (T : existsb snd (map (element_number b) (c :: d :: id)) = true).
      { apply existsb_exists. exists (element_number b c'). split; [now apply in_map|easy]. }
      congruence.
Qed.

(** sizeof asks only for the type, and only the first letter is looked at before that: sizeof(v.xq) is
    accepted. *)
Theorem C78_sizeof_refuted :
  exists b, ~ valid b (str "xq") /\ size_of 4 b (str "xq") = Some 8%nat.
Proof.
  exists (BLval (VT 3 true) (PU 0)). split; [|reflexivity].
  intros [_ V]. destruct (V "q"%char) as (k & N & _); [cbn; tauto|]. apply element_of_named in N. cbn in N. lia.
Qed.

(** An assignment to an element writes it in the lanes that are on (for a vector that all lanes share, whichever
    are on) and nothing else, if no two of these lanes write the same element. *)
Theorem C78_element_write W m mask b t p c k x : b = BLval t p \/ b = BArrow t p ->
  (0 < W)%nat -> named c k -> (k < vn t)%nat ->
  exists m', assign W m mask b [c] x = Some m' /\
    (forall a, m' a <> m a -> exists l, (l < W)%nat /\ (differs b = true -> mask l = true) /\ a = elem_addr W t p k l) /\
    (differs b = false -> forall l, m' (elem_addr W t p k l) = x 0%nat) /\
    (differs b = true ->
     (forall l l', (l < W)%nat -> (l' < W)%nat -> mask l = true -> mask l' = true ->
        elem_addr W t p k l = elem_addr W t p k l' -> l = l') ->
     forall l, (l < W)%nat -> mask l = true -> m' (elem_addr W t p k l) = x l).
Proof.
  intros Hb W0 N L.
  assert (N' : element_number b c = (Z.of_nat k, false)) by (apply number_ok; destruct Hb as [-> | ->]; easy).
  assert (D : differs b = (vv t || is_pv p)) by (destruct Hb as [-> | ->]; reflexivity).
  assert (A : assign W m mask b [c] x =
     Some (store W m mask (add_varying_offsets (vv t) (add_element_offset W t p (Z.of_nat k))) (vv t) x)).
  { unfold assign, create, get_lvalue. rewrite N'. cbn [snd negb fst].
    assert (K : (Z.of_nat k =? -1) = false) by (apply Z.eqb_neq; lia). rewrite K. destruct Hb as [-> | ->]; reflexivity. }
  rewrite A. eexists. split; [reflexivity|]. rewrite D. clear A D N' Hb.
  assert (Go : forall f : nat -> Z, (forall l, f l = elem_addr W t p k l) ->
    let m' := fold_left (fun m l => if mask l then upd m (f l) (x l) else m) (seq 0 W) m in
    (forall a, m' a <> m a -> exists l, (l < W)%nat /\ (true = true -> mask l = true) /\ a = elem_addr W t p k l) /\
    (true = false -> forall l, m' (elem_addr W t p k l) = x 0%nat) /\
    (true = true ->
     (forall l l', (l < W)%nat -> (l' < W)%nat -> mask l = true -> mask l' = true ->
        elem_addr W t p k l = elem_addr W t p k l' -> l = l') ->
     forall l, (l < W)%nat -> mask l = true -> m' (elem_addr W t p k l) = x l)).
  { intros f F m'. split; [|split; [discriminate|]].
    - intros a Ha. destruct (existsb (fun l => mask l && (f l =? a)) (seq 0 W)) eqn:E.
      + apply existsb_exists in E as (l & H1 & H2). apply in_seq in H1. apply andb_prop in H2 as [H2 H3].
        apply Z.eqb_eq in H3. exists l. split; [lia|]. split; [easy|]. now rewrite <- F.
      + destruct Ha. apply upd_fold. intros l Hl Hm Hf.
        assert (T : existsb (fun l => mask l && (f l =? a)) (seq 0 W) = true); [|congruence].
        apply existsb_exists. exists l. split; [easy|]. rewrite Hm, Hf. apply Z.eqb_refl.
    - intros _ Dist l Hl Hm. rewrite <- F. apply upd_fold_at; [apply seq_NoDup|apply in_seq; lia|easy|].
      intros l' Hl' Hm' E. apply in_seq in Hl'. rewrite !F in E. apply Dist; auto; lia. }
  unfold elem_addr, stride in *. destruct p as [a|a]; cbn [add_element_offset add_varying_offsets store at_lane is_pv] in *; unfold stride.
  - rewrite orb_false_r. destruct (vv t).
    + apply Go. intros l. lia.
    + split; [|split; [|discriminate]].
      * intros a' Ha. exists 0%nat. split; [easy|]. split; [discriminate|]. unfold upd in Ha.
        destruct (Z.eqb_spec a' (a + Z.of_nat k * 1)); [lia|congruence].
      * intros _ l. unfold upd. replace (a + Z.of_nat k =? a + Z.of_nat k * 1) with true; [reflexivity|].
        symmetry. apply Z.eqb_eq. lia.
  - rewrite orb_true_r. destruct (vv t); apply Go; intros l; lia.
Qed.

Example C78_write_meets : forall i l l' : nat, (l < 4)%nat -> (l' < 4)%nat ->
  elem_addr 4 (VT 3 true) (PV (fun l => 12 * Z.of_nat (i + l))) 1 l =
  elem_addr 4 (VT 3 true) (PV (fun l => 12 * Z.of_nat (i + l))) 1 l' -> l = l'.
Proof. intros i l l' H1 H2. unfold elem_addr, at_lane, vv. lia. Qed.

(** A swizzle has no address and cannot be assigned to. *)
Theorem C78_swizzle_not_assignable W m mask b id x : (2 <= List.length id)%nat ->
  assign W m mask b id x = None /\ lvalue_type b id = None.
Proof.
  intros H. destruct id as [|c [|d id]]; cbn in H; try lia. unfold assign. split; [|reflexivity].
  cbn [get_lvalue]. now destruct (create _ _).
Qed.

Print Assumptions C78_element_read.
Print Assumptions C78_swizzle_partial.
Print Assumptions C78_swizzle_lanes_refuted.
Print Assumptions C78_swizzle_arrow_refuted.
Print Assumptions C78_rejected.
Print Assumptions C78_sizeof_refuted.
Print Assumptions C78_element_write.
Print Assumptions C78_swizzle_not_assignable.
