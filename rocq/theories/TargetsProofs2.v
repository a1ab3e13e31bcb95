From Coq Require Import ZArith List Bool String Ascii Lia.
From Verif Require Import DispatchModel DispatchSpec TargetsTables TargetsModel TargetsSpec TargetsProofs.
Import ListNotations.
Open Scope list_scope.
Open Scope nat_scope.

Definition feature_eq_dec (f g : feature) : {f = g} + {f <> g}.
Proof. decide equality. Defined.
Definition closed (l : list func) (m : modul) : Prop := forall n f, In n (undefined m) -> In f l -> f_name f <> n.

Lemma defined_app (a b : modul) n : defined (a ++ b)%list n = defined a n || defined b n.
Proof. apply existsb_app. Qed.
Lemma add_mono needed l t m n : defined m n = true -> defined (add_needed needed l t m) n = true.
Proof.
  revert m. induction l as [|f l IH]; intros m D; cbn [add_needed]; auto. apply IH. destruct (_ && _); auto. rewrite defined_app, D. auto.
Qed.
Lemma add_defines needed l t m f : In f l -> In (f_name f) needed -> defined (add_needed needed l t m) (f_name f) = true.
Proof.
  revert m. induction l as [|g l IH]; intros m I N; [destruct I|]. cbn [add_needed]. destruct I as [->|I]; [|apply IH; auto].
  apply add_mono. apply In_eqb in N. rewrite N. cbn [andb]. destruct (defined m (f_name f)) eqn:D; cbn [negb]; auto.
  rewrite defined_app. cbn. rewrite String.eqb_refl. rewrite orb_true_r. auto.
Qed.
Lemma add_nothing needed l t m : (forall f, In f l -> ~ In (f_name f) needed) -> add_needed needed l t m = m.
Proof.
  induction l as [|f l IH]; intros H; cbn [add_needed]; auto.
  destruct (existsb (String.eqb (f_name f)) needed) eqn:E; [apply In_eqb in E; exfalso; apply (H f); cbn; auto|]. cbn [andb]. apply IH. intros g G. apply H. right. auto.
Qed.
Lemma add_origin needed l t m d : In d (add_needed needed l t m) -> In d m \/ (snd d = Some t /\ In (fst d) l).
Proof.
  revert m. induction l as [|f l IH]; intros m I; cbn [add_needed] in I; auto. apply IH in I as [I|(A & B)]; [|right; split; [auto|right; auto]].
  destruct (_ && _); auto. apply in_app_iff in I as [I|[<-|[]]]; auto. right. split; auto. left. auto.
Qed.
Lemma add_keeps needed l t m d : In d m -> In d (add_needed needed l t m).
Proof. revert m. induction l as [|f l IH]; intros m I; cbn [add_needed]; auto. apply IH. destruct (_ && _); auto. apply in_app_iff. auto. Qed.
Lemma add_unique needed l t m : NoDup (map (fun d => f_name (fst d)) m) -> NoDup (map (fun d => f_name (fst d)) (add_needed needed l t m)).
Proof.
  revert m. induction l as [|f l IH]; intros m ND; cbn [add_needed]; auto. apply IH. destruct (existsb (String.eqb (f_name f)) needed && negb (defined m (f_name f))) eqn:E; auto.
  apply andb_prop in E as (_ & E). apply negb_true_iff in E. rewrite map_app. cbn [map fst].
  apply (NoDup_Add (a := f_name f) (l := map (fun d => f_name (fst d)) m)); [rewrite <- (app_nil_r (map _ m)) at 1; apply Add_app|]. split; auto.
  intros I. apply in_map_iff in I as (d & Q & I). assert (defined m (f_name f) = true); [|congruence]. apply existsb_exists. exists d. split; auto. apply String.eqb_eq. auto.
Qed.

Definition missing (l : list func) (m : modul) : nat := List.length (filter (fun f => negb (defined m (f_name f))) l).
Lemma filter_length_lt {A} (p q : A -> bool) l : (forall x, q x = true -> p x = true) -> (exists x, In x l /\ p x = true /\ q x = false) ->
  List.length (filter q l) < List.length (filter p l).
Proof.
  intros S. assert (LE : forall l, List.length (filter q l) <= List.length (filter p l)).
  { clear l. induction l as [|a l IH]; cbn; auto. destruct (q a) eqn:Q; [rewrite (S a Q); cbn; lia|]. destruct (p a); cbn; lia. }
  induction l as [|a l IH]; intros (x & I & P & Q); [destruct I|]. cbn. destruct I as [->|I].
  - rewrite P, Q. cbn. specialize (LE l). lia.
  - destruct (q a) eqn:QA; [rewrite (S a QA); cbn; assert (List.length (filter q l) < List.length (filter p l)) by (apply IH; eauto); lia|].
    assert (List.length (filter q l) < List.length (filter p l)) by (apply IH; eauto). destruct (p a); cbn; lia.
Qed.
Lemma undefined_not m n : In n (undefined m) -> defined m n = false.
Proof. intros I. apply filter_In in I as (_ & I). apply negb_true_iff in I. auto. Qed.

Lemma closed_dec l m : {closed l m} + {exists f, In f l /\ In (f_name f) (undefined m)}.
Proof.
  destruct (existsb (fun f => existsb (String.eqb (f_name f)) (undefined m)) l) eqn:E.
  - right. apply existsb_exists in E as (f & I & E). exists f. split; auto. apply In_eqb. auto.
  - left. intros n f N I Q. subst n. assert (existsb (fun f => existsb (String.eqb (f_name f)) (undefined m)) l = true); [|congruence].
    apply existsb_exists. exists f. split; auto. apply In_eqb. auto.
Qed.
Lemma rounds_closed n l t m : missing l m <= n -> closed l (link_rounds n l t m).
Proof.
  revert m. induction n as [|n IH]; intros m H; cbn [link_rounds].
  - intros k f K I Q. subst k. apply undefined_not in K. assert (Z : In f (filter (fun f => negb (defined m (f_name f))) l)) by (apply filter_In; rewrite K; auto).
    unfold missing in H. destruct (filter _ l); [destruct Z|cbn in H; lia].
  - destruct (closed_dec l m) as [C|(f & I & N)].
    + assert (E : add_needed (undefined m) l t m = m) by (apply add_nothing; intros f I N; apply (C _ f N I eq_refl)). rewrite E.
      clear IH H. assert (R : forall k, link_rounds k l t m = m) by (induction k; cbn [link_rounds]; auto; rewrite E; auto). rewrite R. auto.
    + apply IH. enough (missing l (add_needed (undefined m) l t m) < missing l m) by lia. apply filter_length_lt.
      * intros x X. apply negb_true_iff in X. apply negb_true_iff. destruct (defined m (f_name x)) eqn:D; auto. rewrite (add_mono _ _ _ _ _ D) in X. discriminate.
      * exists f. split; auto. split; [rewrite (undefined_not _ _ N); auto|]. rewrite add_defines; auto.
Qed.
Lemma filter_length {A} (p : A -> bool) l : List.length (filter p l) <= List.length l.
Proof. induction l as [|a l IH]; cbn; auto. destruct (p a); cbn; lia. Qed.
Lemma link_closed l t m : closed l (link_library l t m).
Proof. apply rounds_closed. apply filter_length. Qed.
Lemma rounds_facts n l t m : (forall d, In d (link_rounds n l t m) -> In d m \/ (snd d = Some t /\ In (fst d) l)) /\
  (forall d, In d m -> In d (link_rounds n l t m)) /\ (NoDup (map (fun d => f_name (fst d)) m) -> NoDup (map (fun d => f_name (fst d)) (link_rounds n l t m))).
Proof.
  revert m. induction n as [|n IH]; intros m; cbn [link_rounds]; [auto|]. destruct (IH (add_needed (undefined m) l t m)) as (A & B & C). split; [|split].
  - intros d I. apply A in I as [I|I]; auto. apply add_origin in I. auto.
  - intros d I. apply B. apply add_keeps. auto.
  - intros ND. apply C. apply add_unique. auto.
Qed.

Lemma parent_case llvm22 t : parent_target llvm22 t = T_none \/ parent_target llvm22 t <> T_none.
Proof. destruct (target_eq_dec (parent_target llvm22 t) T_none); auto. Qed.

(** The result of the loop over the parents. *)
Definition good (llvm22 : bool) (lib : target -> list func) (ch : list target) (symbols : list func) (m m' : modul) : Prop :=
  closed symbols m' /\ (forall d, In d m -> In d m') /\
  (NoDup (map (fun d => f_name (fst d)) m) -> NoDup (map (fun d => f_name (fst d)) m')) /\
  (forall d, In d m' -> In d m \/ exists p, snd d = Some p /\ In p ch /\ In (fst d) (lib p)).

Lemma parents_good fuel llvm22 lib t m ch : hierarchy fuel llvm22 t = Some ch -> t <> T_none -> closed (lib t) m ->
  exists m', link_parents fuel llvm22 lib (lib (last ch t)) t m = Some (m', false) /\ good llvm22 lib ch (lib (last ch t)) m m'.
Proof.
  revert t m ch. induction fuel as [|fuel IH]; intros t m ch H NT C; [discriminate|]. cbn [hierarchy] in H.
  assert (H' : option_map (cons t) (hierarchy fuel llvm22 (parent_target llvm22 t)) = Some ch) by (destruct t; try exact H; congruence). clear H.
  destruct (hierarchy fuel llvm22 (parent_target llvm22 t)) as [ch'|] eqn:HP; [|discriminate]. injection H' as <-. cbn [link_parents].
  destruct (has_unresolved m (lib (last (t :: ch') t))) eqn:U.
  - apply existsb_exists in U as (n & N & U). apply existsb_exists in U as (f & F & U). apply String.eqb_eq in U.
    assert (NP : parent_target llvm22 t <> T_none).
    { intros E. rewrite E in HP. destruct fuel; [discriminate|]. injection HP as <-. cbn [last] in F. apply (C n f N F U). }
    assert (L : last (t :: ch') t = last ch' (parent_target llvm22 t)).
    { destruct fuel; [discriminate|]. cbn [hierarchy] in HP. destruct ch' as [|c ch'].
      - exfalso. destruct (parent_target llvm22 t); try congruence; destruct (hierarchy fuel llvm22 _); discriminate.
      - clear. revert c. induction ch' as [|c' ch' IH]; intros c; auto. cbn [last] in *. apply (IH c'). }
    rewrite L in *. destruct (IH (parent_target llvm22 t) (link_library (lib (parent_target llvm22 t)) (parent_target llvm22 t) m) ch' HP NP (link_closed _ _ _)) as (m' & E & G1 & G2 & G3 & G4).
    exists m'. split; [destruct (parent_target llvm22 t); try exact E; congruence|]. destruct (rounds_facts (List.length (lib (parent_target llvm22 t))) (lib (parent_target llvm22 t)) (parent_target llvm22 t) m) as (R1 & R2 & R3).
    split; auto. split; [|split]; auto. intros d D. apply G4 in D as [D|(p & P1 & P2 & P3)].
    + apply R1 in D as [D|(D1 & D2)]; auto. right. exists (parent_target llvm22 t). split; auto. split; auto. right.
      destruct fuel; [discriminate|]. cbn [hierarchy] in HP. destruct (parent_target llvm22 t); try congruence; destruct (hierarchy fuel llvm22 _); try discriminate; injection HP as <-; left; auto.
    + right. exists p. split; auto. split; auto. right. auto.
  - exists m. split; auto. split; [|split; [|split]]; auto. intros n f N I Q.
    assert (has_unresolved m (lib (last (t :: ch') t)) = true); [|congruence]. apply existsb_exists. exists n. split; auto. apply existsb_exists. exists f. split; auto. apply String.eqb_eq. auto.
Qed.

Lemma hierarchy_ends llvm22 t : hierarchy 10 llvm22 t = Some (chain llvm22 t).
Proof. unfold chain. destruct llvm22, t; reflexivity. Qed.
Lemma chain_head llvm22 t : t <> T_none -> In t (chain llvm22 t).
Proof.
  intros N. assert (G : forall fuel ch, hierarchy fuel llvm22 t = Some ch -> In t ch).
  { intros [|fuel] ch H; [discriminate|]. cbn [hierarchy] in H.
    assert (H' : option_map (cons t) (hierarchy fuel llvm22 (parent_target llvm22 t)) = Some ch) by (destruct t; try exact H; congruence).
    destruct (hierarchy fuel llvm22 (parent_target llvm22 t)); [|discriminate]. injection H' as <-. left. auto. }
  apply (G 10). apply hierarchy_ends.
Qed.

Lemma link_good llvm22 lib t m : t <> T_none -> exists m', link_target_builtins llvm22 lib t m = Some (m', false) /\
  good llvm22 lib (chain llvm22 t) (lib (last (chain llvm22 t) t)) m m'.
Proof.
  intros N. unfold link_target_builtins. destruct (parents_good 10 llvm22 lib t (link_library (lib t) t m) _ (hierarchy_ends llvm22 t) N (link_closed _ _ _)) as (m' & E & G1 & G2 & G3 & G4).
  exists m'. split; auto. destruct (rounds_facts (List.length (lib t)) (lib t) t m) as (R1 & R2 & R3). split; auto. split; [|split]; auto.
  intros d D. apply G4 in D as [D|D]; auto. apply R1 in D as [D|(D1 & D2)]; auto. right. exists t. split; auto. split; auto. apply chain_head. auto.
Qed.

Lemma mem_In f l : existsb (fun g => if feature_eq_dec f g then true else false) l = true -> In f l.
Proof. intros E. apply existsb_exists in E as (g & I & E). destruct (feature_eq_dec f g); congruence. Qed.
Definition includes (a b : list feature) : bool := forallb (fun f => existsb (fun g => if feature_eq_dec f g then true else false) b) a.
Lemma includes_ok a b f : includes a b = true -> In f a -> In f b.
Proof. intros H I. unfold includes in H. rewrite forallb_forall in H. apply mem_In. auto. Qed.

(** Shapes along the chains. *)
Definition chain_ok (llvm22 : bool) (t : target) : bool :=
  forallb (fun a64 => match constructed t a64 with
    | None => true
    | Some x => forallb (fun p => match constructed p a64 with
        | None => false
        | Some y => (vectorWidth x =? vectorWidth y)%Z && (maskBitCount x =? maskBitCount y)%Z &&
            match target_to_isa t, target_to_isa p with
            | Some (X i), Some (X j) => includes (needs j) (needs i)
            | Some i, Some j => tisa_eqb i j
            | Some _, None => is_generic p
            | None, None => is_generic p
            | None, Some _ => false
            end
        end) (chain llvm22 t)
    end) [true; false].
Lemma chains_ok : forallb (fun t => chain_ok true t && chain_ok false t) all_targets = true.
Proof. vm_compute. reflexivity. Qed.
Lemma all_targets_all t : In t all_targets.
Proof. assert (E : existsb (target_beq t) all_targets = true) by (destruct t; reflexivity). apply existsb_exists in E as (x & I & E). apply target_beq_iff in E. congruence. Qed.
Lemma chain_shape llvm22 t p a64 x : constructed t a64 = Some x -> In p (chain llvm22 t) ->
  exists y, constructed p a64 = Some y /\ vectorWidth y = vectorWidth x /\ maskBitCount y = maskBitCount x /\
  (is_generic p = true \/
   (exists i j, target_to_isa t = Some (X i) /\ target_to_isa p = Some (X j) /\ forall f, In f (needs j) -> In f (needs i)) \/
   (exists i, target_to_isa t = Some i /\ target_to_isa p = Some i)).
Proof.
  intros C I. pose proof chains_ok as K. rewrite forallb_forall in K. specialize (K t (all_targets_all t)). apply andb_prop in K as (K1 & K2).
  assert (K : chain_ok llvm22 t = true) by (destruct llvm22; auto). clear K1 K2. unfold chain_ok in K. rewrite forallb_forall in K.
  assert (IA : In a64 [true; false]) by (destruct a64; cbn; auto). specialize (K _ IA). rewrite C in K. rewrite forallb_forall in K. specialize (K _ I).
  destruct (constructed p a64) as [y|]; [|discriminate]. exists y. split; auto. apply andb_prop in K as (K & K3). apply andb_prop in K as (K1 & K2). apply Z.eqb_eq in K1, K2.
  split; auto. split; auto. destruct (target_to_isa t) as [i|], (target_to_isa p) as [j|]; try discriminate; auto.
  - right. destruct i as [i| | | | | | | | | | |]; [|right; eexists; split; [reflexivity|]; destruct j; apply tisa_eqb_iff in K3; congruence ..].
    destruct j as [j| | | | | | | | | | |]; [|right; apply tisa_eqb_iff in K3; discriminate ..].
    left. exists i, j. split; auto. split; auto. intros f F. eapply includes_ok; eauto.
  - destruct i; auto.
Qed.
Lemma roots_ok : forallb (fun t => existsb (target_beq t) [T_none; T_host; T_error] || is_gen t || is_generic (last (chain true t) t)) all_targets = true.
Proof. vm_compute. reflexivity. Qed.
Lemma roots_ok_old : forallb (fun t => existsb (target_beq t) [T_none; T_host; T_error] || is_gen t ||
  existsb (target_beq t) [T_avx10_2nvl_x4; T_avx10_2nvl_x8; T_avx10_2nvl_x16; T_avx10_2nvl_x32; T_avx10_2nvl_x64] || is_generic (last (chain false t) t)) all_targets = true.
Proof. vm_compute. reflexivity. Qed.
Lemma chain_root llvm22 t : t <> T_none -> t <> T_host -> t <> T_error -> is_gen t = false ->
  (llvm22 = true \/ ~ In t [T_avx10_2nvl_x4; T_avx10_2nvl_x8; T_avx10_2nvl_x16; T_avx10_2nvl_x32; T_avx10_2nvl_x64]) -> is_generic (last (chain llvm22 t) t) = true.
Proof.
  intros N1 N2 N3 N4 L.
  assert (E : existsb (target_beq t) [T_none; T_host; T_error] = false).
  { cbn [existsb]. destruct (target_beq t T_none) eqn:E1; [apply target_beq_iff in E1; contradiction|]. destruct (target_beq t T_host) eqn:E2; [apply target_beq_iff in E2; contradiction|].
    destruct (target_beq t T_error) eqn:E3; [apply target_beq_iff in E3; contradiction|]. auto. }
  destruct llvm22.
  - pose proof (proj1 (forallb_forall _ _) roots_ok t (all_targets_all t)) as K. cbv beta in K. rewrite E, N4 in K. rewrite !orb_false_l in K. exact K.
  - destruct L as [L|L]; [discriminate|].
    pose proof (proj1 (forallb_forall _ _) roots_ok_old t (all_targets_all t)) as K. cbv beta in K. rewrite E, N4 in K. rewrite !orb_false_l in K.
    apply orb_prop in K as [K|K]; [|exact K]. exfalso. apply L. apply existsb_exists in K as (x & I & X). apply target_beq_iff in X. congruence.
Qed.
