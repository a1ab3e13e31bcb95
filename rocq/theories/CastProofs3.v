(** Short vectors, structures, pointers, enumerations. *)
From Coq Require Import ZArith Lia List Bool SpecFloat.
Import ListNotations.
From Verif Require Import Bits FpProofs FoldModel FoldSpec FoldProofs CastModel CastSpec CastProofs CastProofs2.
Open Scope Z_scope.

(** ** Values of basic types *)
Lemma cast_uniform mb pw W from to s v : mask_size mb -> user_type from -> user_type to -> lane_represents 1 from s v ->
  exists s', cast_basic mb pw W false false from to (Sc s) = Some (Sc s') /\ right_lane 1 from to v s'.
Proof.
  intros M UF UT R. unfold cast_basic. destruct (basic_eqb from to) eqn:E; cbn [andb Bool.eqb].
  - apply basic_eqb_eq in E as ->. exists s. split; [auto|]. apply same_right; auto.
  - destruct (conv_uniform mb pw W from to UF UT s v R) as (s' & X & Y & _). eauto.
Qed.
Lemma cast_smear mb pw W from to s v : mask_size mb -> user_type from -> user_type to -> lane_represents 1 from s v ->
  exists s', cast_basic mb pw W false true from to (Sc s) = Some (Vec (repeat s' W)) /\ right_lane mb from to v s'.
Proof.
  intros M UF UT R. unfold cast_basic. rewrite andb_false_r.
  destruct (conv_smear mb pw W from to M UF UT s v R) as (s' & X & Y & _). eauto.
Qed.
Lemma F2_swap {A B} (P : A -> B -> Prop) (Q : B -> A -> Prop) l vs :
  (forall a b, P a b -> Q b a) -> Forall2 P l vs -> Forall2 Q vs l.
Proof. intros H F. induction F; constructor; auto. Qed.
Lemma cast_varying mb pw W from to l vs : mask_size mb -> user_type from -> user_type to -> lanes_represent mb from l vs ->
  exists l', cast_basic mb pw W true true from to (Vec l) = Some (Vec l') /\ right_lanes mb from to vs l'.
Proof.
  intros M UF UT R. unfold cast_basic. destruct (basic_eqb from to) eqn:E; cbn [andb Bool.eqb].
  - apply basic_eqb_eq in E as ->. exists l. split; [auto|]. eapply F2_swap; [|exact R]. intros a b. apply same_right.
  - destruct (conv_varying mb pw W from to M UF UT l vs R) as (l' & X & Y & _). eauto.
Qed.

(** ** Short vectors *)
Lemma mapM_ext_in {A B} (f g : A -> option B) l : (forall x, In x l -> f x = g x) -> mapM f l = mapM g l.
Proof. induction l as [|x l IH]; cbn; intros H; auto. rewrite H, IH by auto. auto. Qed.
Lemma mapM_map {A B C} (f : B -> option C) (g : A -> B) l : mapM f (map g l) = mapM (fun x => f (g x)) l.
Proof. induction l as [|x l IH]; cbn; auto. rewrite IH. auto. Qed.
Lemma mapM_nth {A B} (f : A -> option B) l : forall n, (n <= length l)%nat ->
  mapM (fun i => bind (nth_error l i) f) (seq 0 n) = mapM f (firstn n l).
Proof.
  induction l as [|x l IH]; intros [|n] L; cbn [length] in L; try lia; auto.
  cbn [seq firstn mapM]. rewrite <- seq_shift, mapM_map. cbn [nth_error bind]. rewrite IH by lia. auto.
Qed.
Lemma F2_firstn {A B} (R : A -> B -> Prop) n : forall l vs, Forall2 R l vs -> Forall2 R (firstn n l) (firstn n vs).
Proof. induction n as [|n IH]; intros l vs F; cbn; auto. destruct F; auto. Qed.

Lemma cast_uvec mb pw W n from to l vs : mask_size mb -> user_type from -> user_type to -> lanes_represent 1 from l vs ->
  exists l', cast_vector mb pw W n false false from to (Vec l) = Some (Vec l') /\ right_lanes 1 from to vs l'.
Proof.
  intros M UF UT R. unfold cast_vector. destruct (basic_eqb from to) eqn:E; cbn [andb Bool.eqb negb].
  - apply basic_eqb_eq in E as ->. exists l. split; [auto|]. eapply F2_swap; [|exact R]. intros a b. apply same_right.
  - apply conv_uvec; auto.
Qed.

Lemma mapM_repeat {A B} (f : A -> option B) x y n : f x = Some y -> mapM f (repeat x n) = Some (repeat y n).
Proof. intros E. induction n as [|n IH]; cbn; auto. rewrite E, IH. auto. Qed.

Lemma cast_uvec_varying mb pw W n from to l vs : mask_size mb -> user_type from -> user_type to -> (n <= length l)%nat ->
  lanes_represent 1 from l vs ->
  exists rs, cast_vector mb pw W n false true from to (Vec l) = Some (Agg (map (fun s => Vec (repeat s W)) rs)) /\
    right_lanes mb from to (firstn n vs) rs.
Proof.
  intros M UF UT L R. unfold cast_vector. rewrite andb_false_r. cbn [andb negb extract].
  set (f := fun s => bind (conv_atomic mb pw W SUniform SVarying from to (Sc s))
                       (fun c => match to with BBool => lift (switch_mask mb mb) c | _ => Some c end)).
  rewrite (mapM_ext_in _ (fun i => bind (nth_error l i) f)) by (intros i _; destruct (nth_error l i); auto).
  rewrite mapM_nth by auto.
  assert (H : forall s v, lane_represents 1 from s v -> exists r, f s = Some r /\ exists s', r = Vec (repeat s' W) /\ right_lane mb from to v s').
  { intros s v X. destruct (conv_smear mb pw W from to M UF UT s v X) as (s' & E & Y & Z0).
    exists (Vec (repeat s' W)). split; [|eauto]. unfold f. rewrite E. cbn [bind].
    destruct (basic_eqb to BBool) eqn:EB; [|destruct to; auto; discriminate]. apply basic_eqb_eq in EB. subst to.
    cbn [lift]. rewrite (mapM_repeat _ s' s'); [auto|]. destruct (Z0 eq_refl) as [-> |(b & ->)]; auto. apply mask_to_mask; auto. }
  destruct (mapM_F2 f _ _ _ _ H (F2_firstn _ n _ _ R)) as (rs & E & G).
  { rewrite E. clear E. unfold right_lanes.
    assert (X : exists ss, rs = map (fun s => Vec (repeat s W)) ss /\ Forall2 (right_lane mb from to) (firstn n vs) ss).
    { clear -G. induction G as [|v r vs' rs (s' & -> & Y) G (ss & -> & IH)]; [exists []; auto|]. exists (s' :: ss). auto. }
    destruct X as (ss & -> & X). exists ss. auto. }
Qed.

Lemma cast_vvec mb pw W from to ls vss : mask_size mb -> user_type from -> user_type to ->
  Forall2 (lanes_represent mb from) ls vss ->
  exists rs, cast_vector mb pw W (length ls) true true from to (Agg (map Vec ls)) = Some (Agg (map Vec rs)) /\
    Forall2 (right_lanes mb from to) vss rs.
Proof.
  intros M UF UT R. unfold cast_vector. destruct (basic_eqb from to) eqn:EQ; cbn [andb Bool.eqb negb].
  { apply basic_eqb_eq in EQ as ->. exists ls. split; [auto|]. eapply F2_swap; [|exact R]. cbn. intros l vs F.
    eapply F2_swap; [|exact F]. intros a b. apply same_right. }
  cbn [extract].
  set (f := fun x => bind (conv_atomic mb pw W SVarying SVarying from to x)
                       (fun c => match to with BBool => lift (switch_mask mb mb) c | _ => Some c end)).
  rewrite mapM_nth by (rewrite map_length; auto). replace (length ls) with (length (map Vec ls)) by apply map_length.
  rewrite firstn_all, mapM_map.
  assert (H : forall l vs, lanes_represent mb from l vs -> exists r, f (Vec l) = Some r /\ exists l', r = Vec l' /\ right_lanes mb from to vs l').
  { intros l vs X. destruct (conv_varying mb pw W from to M UF UT l vs X) as (l' & E & Y & Z0).
    exists (Vec l'). split; [|eauto]. unfold f. rewrite E. cbn [bind].
    destruct (basic_eqb to BBool) eqn:EB; [|destruct to; auto; discriminate]. apply basic_eqb_eq in EB. subst to.
    cbn [lift]. rewrite Z0 by auto. auto. }
  destruct (mapM_F2 (fun x => f (Vec x)) _ _ _ _ H R) as (rs & E & G).
  { rewrite E. clear E.
    assert (X : exists ss, rs = map Vec ss /\ Forall2 (right_lanes mb from to) vss ss).
    { clear -G. induction G as [|v r vs' rs (s' & -> & Y) G (ss & -> & IH)]; [exists []; auto|]. exists (s' :: ss). auto. }
    destruct X as (ss & -> & X). exists ss. auto. }
Qed.

Lemma splat_uniform mb pw W n mem from to s v : mask_size mb -> user_type from -> user_type to -> to <> BBool ->
  lane_represents 1 from s v -> exists s',
  cast_splat mb pw W n mem false false from to (Sc s) = Some (Vec (repeat s' mem)) /\ right_lane 1 from to v s'.
Proof.
  intros M UF UT NB R. unfold cast_splat. destruct (conv_uniform mb pw W from to UF UT s v R) as (s' & -> & X & _). cbn [bind].
  exists s'. split; [|auto]. destruct s'; auto. destruct to; auto; congruence.
Qed.
Lemma splat_uniform_varying mb pw W n mem from to s v : mask_size mb -> user_type from -> user_type to ->
  lane_represents 1 from s v -> exists s',
  cast_splat mb pw W n mem false true from to (Sc s) = Some (Agg (repeat (Vec (repeat s' W)) n)) /\ right_lane mb from to v s'.
Proof.
  intros M UF UT R. unfold cast_splat. destruct (conv_smear mb pw W from to M UF UT s v R) as (s' & -> & X & Z0). cbn [bind].
  exists s'. split; [|auto]. destruct (basic_eqb to BBool) eqn:EB; [|destruct to; auto; discriminate]. apply basic_eqb_eq in EB. subst to.
  cbn [lift]. rewrite (mapM_repeat _ s' s'); [auto|]. destruct (Z0 eq_refl) as [-> |(b & ->)]; auto. apply mask_to_mask; auto.
Qed.
Lemma splat_varying mb pw W n mem from to l vs : mask_size mb -> user_type from -> user_type to ->
  lanes_represent mb from l vs -> exists l',
  cast_splat mb pw W n mem true true from to (Vec l) = Some (Agg (repeat (Vec l') n)) /\ right_lanes mb from to vs l'.
Proof.
  intros M UF UT R. unfold cast_splat. destruct (conv_varying mb pw W from to M UF UT l vs R) as (l' & -> & X & Z0). cbn [bind].
  exists l'. split; [|auto]. destruct (basic_eqb to BBool) eqn:EB; [|destruct to; auto; discriminate]. apply basic_eqb_eq in EB. subst to.
  cbn [lift]. rewrite Z0 by auto. auto.
Qed.

(** ** Structures *)
Lemma element_ok mb pw W t s c : mask_size mb -> user_type t -> mem_rep t s c ->
  exists s', element_to_varying mb pw W t (Sc s) = Some (Vec (repeat s' W)) /\ mem_rep t s' c.
Proof.
  intros M U R. destruct R as [b|t s c NB R].
  - exists (IV 8 (if b then 1 else 0)). split; [|constructor]. unfold element_to_varying. cbn [lift].
    replace (i_trunc 1 (IV 8 (if b then 1 else 0))) with (Some (bit b)) by (destruct b; reflexivity). cbn [option_map bind].
    destruct (conv_smear mb pw W BBool BBool M U U (bit b) (Some (CB b))) as (s' & -> & X & _).
    { cbn. split; [auto|]. destruct b; reflexivity. }
    cbn [bind lift]. specialize (X _ (Same _ _)). destruct X as (_ & ->).
    rewrite (mapM_repeat _ _ (IV 8 (if b then 1 else 0))); [auto|].
    unfold mask_size in M; cbn in M. destruct b; repeat (destruct M as [<-|M]; [reflexivity|]); destruct M.
  - destruct (conv_smear mb pw W t t M U U s (Some c) R) as (s' & E & X & _). exists s'.
    split; [unfold element_to_varying; rewrite E; destruct t; auto; congruence|].
    constructor; auto. eapply represents_other; [auto|]. apply X. constructor.
Qed.

Definition members (mb pw : Z) (W : nat) (v : lv) : nat -> list (bool * sty) -> option (list lv) :=
  fix members i ms :=
    match ms with
    | [] => Some []
    | (bound, t) :: ms =>
        match bind (extract v i) (if bound : bool then Some else to_varying mb pw W t), members (S i) ms with
        | Some x, Some r => Some (x :: r)
        | _, _ => None
        end
    end.
Lemma members_seq mb pw W v t : forall n k,
  mapM (fun i => bind (extract v i) (to_varying mb pw W t)) (seq k n) = members mb pw W v k (repeat (false, t) n).
Proof. induction n as [|n IH]; intros k; cbn; auto. rewrite IH. auto. Qed.

Scheme uv_ind := Induction for uniform_value Sort Prop
with um_ind := Induction for uniform_members Sort Prop.
Combined Scheme uniform_ind from uv_ind, um_ind.

Lemma nth_repeat_eq {A} (x : A) n i : (i < n)%nat -> nth_error (repeat x n) i = Some x.
Proof. revert i. induction n as [|n IH]; intros [|i] L; try lia; cbn; auto. apply IH. lia. Qed.

Lemma struct_ok mb pw W : mask_size mb -> 0 < pw ->
  (forall t v x, uniform_value pw t v x -> user_sty t ->
     exists r, to_varying mb pw W t v = Some r /\ forall i, (i < W)%nat -> varying_value pw i t r x) /\
  (forall ms l ts, uniform_members pw ms l ts -> user_members ms ->
     forall v k, (forall j, extract v (k + j) = nth_error l j) ->
     exists r, members mb pw W v k ms = Some r /\ forall i, (i < W)%nat -> varying_members pw i ms r ts).
Proof.
  intros M PW.
  assert (UM : forall t n, user_sty t -> user_members (repeat (false, t) n)) by (intros t n U; induction n; cbn; constructor; auto).
  apply (uniform_ind pw
    (fun t v x _ => user_sty t -> exists r, to_varying mb pw W t v = Some r /\ forall i, (i < W)%nat -> varying_value pw i t r x)
    (fun ms l ts _ => user_members ms -> forall v k, (forall j, extract v (k + j) = nth_error l j) ->
       exists r, members mb pw W v k ms = Some r /\ forall i, (i < W)%nat -> varying_members pw i ms r ts)).
  - intros t s c R U. inversion U; subst. cbn [to_varying]. destruct (element_ok mb pw W t s c) as (s' & -> & X); auto.
    exists (Vec (repeat s' W)). split; [auto|]. intros i L. econstructor; [|exact X]. apply nth_repeat_eq; auto.
  - intros a A U. exists (Vec (repeat (IV pw a) W)). split.
    + cbn. unfold wrapu. rewrite Z.mod_small by auto. auto.
    + intros i L. constructor. apply nth_repeat_eq; auto.
  - intros n t l ts R IH U. inversion U; subst. destruct (IH ltac:(apply UM; constructor; auto) (Vec l) 0%nat) as (r & E & X).
    { intros j. cbn. rewrite nth_error_map. auto. }
    exists (Agg r). split; [|intros i L; constructor; auto]. cbn [to_varying].
    change (fun i => bind (extract (Vec l) i) (element_to_varying mb pw W t)) with (fun i => bind (extract (Vec l) i) (to_varying mb pw W (SBasic t))).
    rewrite members_seq, E. auto.
  - intros n t l ts R IH U. inversion U; subst. destruct (IH ltac:(apply UM; auto) (Agg l) 0%nat) as (r & E & X).
    { intros j. auto. }
    exists (Agg r). split; [|intros i L; constructor; auto]. cbn [to_varying]. rewrite members_seq, E. auto.
  - intros ms l ts R IH U. inversion U; subst. destruct (IH ltac:(auto) (Agg l) 0%nat) as (r & E & X).
    { intros j. auto. }
    exists (Agg r). split; [|intros i L; constructor; auto]. cbn [to_varying]. fold (members mb pw W (Agg l)). rewrite E. auto.
  - intros l _ v k E. exists []. split; [auto|]. intros i L. constructor.
  - intros b t ms v l x ts R IH R' IH' U w k E. inversion U; subst.
    destruct (IH' ltac:(auto) w (S k)) as (r & Er & X). { intros j. replace (S k + j)%nat with (k + S j)%nat by lia. apply (E (S j)). }
    assert (Ek : extract w k = Some v) by (rewrite <- (Nat.add_0_r k); rewrite E; auto).
    cbn [members]. fold (members mb pw W w). rewrite Ek, Er. cbn [bind]. destruct b.
    + exists (v :: r). split; [auto|]. intros i L. constructor; auto.
    + destruct (IH ltac:(auto)) as (y & -> & Y). exists (y :: r). split; [auto|]. intros i L. constructor; auto.
Qed.

(** ** Pointers *)
Lemma mapM_IV n m (f : sv -> option sv) (g : Z -> Z) l : (forall a, In a l -> f (IV n a) = Some (IV m (g a))) ->
  mapM f (map (IV n) l) = Some (map (fun a => IV m (g a)) l).
Proof. induction l as [|a l IH]; cbn; intros H; auto. rewrite H, IH by auto. auto. Qed.

Lemma ptr_int_uniform pw W to n a : width to = Some n ->
  cast_ptr_int pw W false false to (Sc (PV a)) = Some (Sc (IV n (a mod 2 ^ n))).
Proof. intros N. unfold cast_ptr_int. rewrite (width_size _ _ N). auto. Qed.
Lemma ptr_int_vec pw n l : 0 < n -> 0 < pw -> Forall (fun a => 0 <= a < 2 ^ pw) l ->
  ptr_to_int_inst pw n (Vec (map (IV pw) l)) = Some (Vec (map (fun a => IV n (a mod 2 ^ n)) l)).
Proof.
  intros N P R. rewrite Forall_forall in R. cbn [ptr_to_int_inst]. destruct (Z.eqb_spec n pw) as [-> |NE].
  - f_equal. f_equal. apply map_ext_in. intros a I. rewrite Z.mod_small by auto. auto.
  - destruct (Z.ltb_spec n pw); cbn [lift].
    + rewrite (mapM_IV pw n _ (fun a => a mod 2 ^ n)); auto. intros a _. cbn. destruct (Z.ltb_spec n pw); [auto|lia].
    + rewrite (mapM_IV pw n _ (fun a => a mod 2 ^ n)); auto. intros a I. cbn. destruct (Z.ltb_spec pw n); [|lia].
      pose proof (R a I). pose proof (Z.pow_lt_mono_r 2 pw n ltac:(lia) ltac:(lia) ltac:(lia)). rewrite Z.mod_small by lia. auto.
Qed.
Lemma repeat_map {A B} (f : A -> B) x n : repeat (f x) n = map f (repeat x n).
Proof. induction n as [|n IH]; cbn; congruence. Qed.
Lemma ptr_int_varying pw W to n l : width to = Some n -> 0 < pw -> Forall (fun a => 0 <= a < 2 ^ pw) l ->
  cast_ptr_int pw W true true to (Vec (map (IV pw) l)) = Some (Vec (map (fun a => IV n (a mod 2 ^ n)) l)).
Proof. intros N P R. unfold cast_ptr_int. rewrite (width_size _ _ N). cbn [bind andb negb]. apply ptr_int_vec; eauto using size_pos. Qed.
Lemma ptr_int_smear pw W to n a : width to = Some n -> 0 < pw -> 0 <= a < 2 ^ pw ->
  cast_ptr_int pw W false true to (Sc (PV a)) = Some (Vec (repeat (IV n (a mod 2 ^ n)) W)).
Proof.
  intros N P R. unfold cast_ptr_int. rewrite (width_size _ _ N). cbn [bind andb negb smear]. unfold wrapu. rewrite Z.mod_small by auto.
  rewrite (repeat_map (IV pw)). rewrite ptr_int_vec; eauto using size_pos.
  - f_equal. f_equal. rewrite <- (repeat_map (fun a => IV n (a mod 2 ^ n))). auto.
  - apply Forall_forall. intros x I. apply repeat_spec in I as ->. auto.
Qed.

Lemma int_ptr_vec pw k l : 0 < k -> 0 < pw -> Forall (fun b => 0 <= b < 2 ^ k) l ->
  int_to_ptr_inst pw k (Vec (map (IV k) l)) = Some (Vec (map (fun b => IV pw (b mod 2 ^ pw)) l)).
Proof.
  intros N P R. rewrite Forall_forall in R. cbn [int_to_ptr_inst]. destruct (Z.eqb_spec k pw) as [-> |NE].
  - f_equal. f_equal. apply map_ext_in. intros a I. rewrite Z.mod_small by auto. auto.
  - destruct (Z.ltb_spec pw k); cbn [lift].
    + rewrite (mapM_IV k pw _ (fun a => a mod 2 ^ pw)); auto. intros a _. cbn. destruct (Z.ltb_spec pw k); [auto|lia].
    + rewrite (mapM_IV k pw _ (fun a => a mod 2 ^ pw)); auto. intros a I. cbn. destruct (Z.ltb_spec k pw); [|lia].
      pose proof (R a I). pose proof (Z.pow_lt_mono_r 2 k pw ltac:(lia) ltac:(lia) ltac:(lia)). rewrite Z.mod_small by lia. auto.
Qed.
Lemma round_mod n pw a : pw <= n -> 0 < pw -> 0 <= a < 2 ^ pw -> (a mod 2 ^ n) mod 2 ^ pw = a.
Proof.
  intros L P R. pose proof (Z.pow_le_mono_r 2 pw n ltac:(lia) L). rewrite (Z.mod_small a (2 ^ n)) by lia. apply Z.mod_small; lia.
Qed.
Lemma ptr_round_uniform pw W t n a : width t = Some n -> pw <= n -> 0 < pw -> 0 <= a < 2 ^ pw ->
  bind (cast_ptr_int pw W false false t (Sc (PV a))) (cast_int_ptr pw W false false t) = Some (Sc (PV a)).
Proof.
  intros N L P R. rewrite (ptr_int_uniform pw W t n a N). cbn [bind]. unfold cast_int_ptr. rewrite (width_size _ _ N). cbn.
  unfold wrapu. rewrite round_mod by lia. auto.
Qed.
Lemma ptr_round_varying pw W t n l : width t = Some n -> pw <= n -> 0 < pw -> Forall (fun a => 0 <= a < 2 ^ pw) l ->
  bind (cast_ptr_int pw W true true t (Vec (map (IV pw) l))) (cast_int_ptr pw W true true t) = Some (Vec (map (IV pw) l)).
Proof.
  intros N L P R. rewrite (ptr_int_varying pw W t n l N P R). cbn [bind]. unfold cast_int_ptr. rewrite (width_size _ _ N). cbn [bind andb negb].
  rewrite <- (map_map (fun a => a mod 2 ^ n) (IV n)).
  assert (NP : 0 < n) by lia. rewrite int_ptr_vec; auto.
  - f_equal. f_equal. rewrite map_map. apply map_ext_in. intros a I. rewrite Forall_forall in R. rewrite round_mod by auto. auto.
  - apply Forall_forall. intros x I. apply in_map_iff in I as (a & <- & _). apply Z.mod_pos_bound, pow2_pos. lia.
Qed.

Lemma ptr_bool_ok mb pw W a : mask_size mb -> 0 < pw -> 0 <= a < 2 ^ pw ->
  cast_ptr_bool mb pw W false false (Sc (PV a)) = Some (Sc (IV 1 (if a =? 0 then 0 else 1))) /\
  cast_ptr_bool mb pw W false true (Sc (PV a)) = Some (Vec (repeat (IV mb (if a =? 0 then 0 else 2 ^ mb - 1)) W)).
Proof.
  intros M P R. unfold cast_ptr_bool. cbn [lift p_ne0 option_map bind]. unfold bit. split.
  - destruct (a =? 0); auto.
  - cbn [smear bind lift]. rewrite (mapM_repeat _ _ (IV mb (if a =? 0 then 0 else 2 ^ mb - 1))); auto.
    pose proof (bit_to_mask mb (negb (a =? 0)) M) as E. unfold bit in E. rewrite E. destruct (a =? 0); auto.
Qed.
Lemma ptr_bool_varying mb pw W l : mask_size mb -> 0 < pw ->
  cast_ptr_bool mb pw W true true (Vec (map (IV pw) l)) = Some (Vec (map (fun a => IV mb (if a =? 0 then 0 else 2 ^ mb - 1)) l)).
Proof.
  intros M P. unfold cast_ptr_bool. cbn [lift].
  assert (E : mapM p_ne0 (map (IV pw) l) = Some (map (fun a => bit (negb (a =? 0))) l)).
  { induction l as [|a l IH]; auto. cbn [map mapM p_ne0 i_ne0]. rewrite IH. auto. }
  rewrite E. cbn [option_map bind lift].
  assert (E2 : mapM (switch_mask mb mb) (map (fun a => bit (negb (a =? 0))) l) = Some (map (fun a => IV mb (if a =? 0 then 0 else 2 ^ mb - 1)) l)).
  { clear E. induction l as [|a l IH]; auto. cbn [map mapM]. rewrite IH, bit_to_mask by auto. destruct (a =? 0); auto. }
  rewrite E2. auto.
Qed.

Lemma int_ptr_uniform pw W t n b : width t = Some n ->
  cast_int_ptr pw W false false t (Sc (IV n b)) = Some (Sc (PV (b mod 2 ^ pw))).
Proof. intros N. unfold cast_int_ptr. rewrite (width_size _ _ N). auto. Qed.
Lemma int_ptr_varying pw W t n l : width t = Some n -> 0 < pw -> Forall (fun b => 0 <= b < 2 ^ n) l ->
  cast_int_ptr pw W true true t (Vec (map (IV n) l)) = Some (Vec (map (fun b => IV pw (b mod 2 ^ pw)) l)).
Proof.
  intros N P R. unfold cast_int_ptr. rewrite (width_size _ _ N). cbn [bind andb negb]. apply int_ptr_vec; eauto using size_pos.
Qed.
Lemma int_ptr_smear pw W t n b : width t = Some n -> 0 < pw -> 0 <= b < 2 ^ n ->
  cast_int_ptr pw W false true t (Sc (IV n b)) = Some (Vec (repeat (IV pw (b mod 2 ^ pw)) W)).
Proof.
  intros N P R. unfold cast_int_ptr. rewrite (width_size _ _ N). cbn [bind andb negb smear].
  rewrite (repeat_map (IV n)). rewrite int_ptr_vec; eauto using size_pos.
  - f_equal. f_equal. rewrite <- (repeat_map (fun a => IV pw (a mod 2 ^ pw))). auto.
  - apply Forall_forall. intros x I. apply repeat_spec in I as ->. auto.
Qed.

(** ** Enumerations *)
Lemma enum_length l : forall next, length (enum_values next l) = length l.
Proof. induction l as [|[z|] l IH]; intros next; cbn; auto. Qed.
Lemma enum_nth l : forall next i o, nth_error l i = Some o ->
  nth_error (enum_values next l) i =
    Some (match o with
          | Some z => z mod 2 ^ 32
          | None => match i with O => next | S j => (nth j (enum_values next l) 0 + 1) mod 2 ^ 32 end
          end).
Proof.
  induction l as [|[z|] l IH]; intros next [|i] o E; try discriminate.
  - cbn in E. injection E as <-. auto.
  - cbn [nth_error] in E |- *. cbn [enum_values nth_error]. rewrite (IH _ _ _ E). destruct o; auto. destruct i; auto.
  - cbn in E. injection E as <-. auto.
  - cbn [nth_error] in E |- *. cbn [enum_values nth_error]. rewrite (IH _ _ _ E). destruct o; auto. destruct i; auto.
Qed.

(** ** Integers a floating-point type has exactly *)
Lemma of_int_finite f z s m : float_type f -> z = cond_Zopp s (Zpos m) -> Zpos m < 2 ^ prec f ->
  exists k, 0 <= k /\ of_int f z = S754_finite s (Z.to_pos (Zpos m * 2 ^ k)) (0 - k).
Proof.
  intros F E L. assert (D1 : 0 < Zdigits2 (Zpos m)) by (cbn; lia).
  assert (PF : 11 <= prec f <= 53 /\ prec f < emax f /\ 3 - emax f <= 0) by (destruct F as [-> |[-> | ->]]; cbn; lia).
  assert (D2 : Zdigits2 (Zpos m) <= prec f).
  { rewrite Zdigits2_log2 by lia. apply Z.log2_lt_pow2 in L; lia. }
  exists (prec f - Zdigits2 (Zpos m)). set (k := prec f - Zdigits2 (Zpos m)) in *. split; [lia|].
  unfold of_int, binary_normalize. replace z with (cond_Zopp s (Zpos m)).
  assert (R : binary_round (prec f) (emax f) s m 0 = S754_finite s (Z.to_pos (Zpos m * 2 ^ k)) (0 - k)).
  { pose proof (pow2_pos k ltac:(lia)). apply round_exact; [lia| |lia|].
    - rewrite Zdigits2_mul by lia. unfold fexp, emin. lia.
    - right. split; [lia|]. f_equal. f_equal. lia. }
  destruct s; cbn [cond_Zopp Z.opp]; exact R.
Qed.
Lemma of_int_trunc f z : float_type f -> Z.abs z < 2 ^ prec f -> trunc (of_int f z) = Some z.
Proof.
  intros F L. destruct z as [|m|m]; [reflexivity| |].
  - destruct (of_int_finite f (Zpos m) false m F eq_refl ltac:(lia)) as (k & K & ->). rewrite trunc_scale by auto. cbn. f_equal. lia.
  - destruct (of_int_finite f (Zneg m) true m F eq_refl ltac:(lia)) as (k & K & ->). rewrite trunc_scale by auto. cbn. f_equal. lia.
Qed.
