From Coq Require Import ZArith List Bool Lia.
From Verif Require Import RedeclModel RedeclSpec RedeclProofs RedeclProofs2.
Import ListNotations.
Local Open Scope Z_scope.

Section I.
Variable internal : bool.

Definition one (f : fsym) (b : Z) : fsym := fst (generate_one internal f b false).
Definition hit (n : Z) (t : ftype) (f : fsym) : bool := (s_name f =? n) && ftype_eqb (s_type f) t.
Definition has_code (f : fsym) : bool := match s_code f with Some _ => true | None => false end.

Lemma one_keeps f b : s_name (one f b) = s_name f /\ s_type (one f b) = s_type f /\ s_class (one f b) = s_class f /\
  s_inline (one f b) = s_inline f.
Proof. unfold one, generate_one. destruct (s_code f); repeat split. Qed.
Lemma one_err f b : generate_one internal f b false = (one f b, has_code f).
Proof. unfold one, generate_one, has_code. now destruct (s_code f). Qed.

Lemma hit_apart n t f g : apart f g -> hit n t f = true -> hit n t g = false.
Proof.
  intros A H. unfold hit in *. apply andb_prop in H as [H1 H2]. apply Z.eqb_eq in H1. apply ftype_eqb_spec in H2.
  destruct (Z.eqb_spec (s_name g) n) as [E|]; [|reflexivity]. cbn. destruct (ftype_eqb (s_type g) t) eqn:F; [|reflexivity].
  apply ftype_eqb_spec in F. destruct A as [A _]; [congruence|]. destruct A. destruct H2 as (_ & -> & _), F as (_ & -> & _). reflexivity.
Qed.

Lemma generate_at_ok n t b : forall fs, ForallOrdPairs apart fs ->
  generate_at internal n t b false fs =
    (map (fun f => if hit n t f then one f b else f) fs, existsb (fun f => hit n t f && has_code f) fs).
Proof.
  induction 1 as [|f fs H1 H2 IH]; [reflexivity|]. cbn [generate_at map existsb]. fold (hit n t f).
  destruct (hit n t f) eqn:E.
  - rewrite one_err. assert (N : forall g, In g fs -> hit n t g = false).
    { intros g Hg. rewrite Forall_forall in H1. now apply (hit_apart n t f g); [apply H1|]. }
    f_equal.
    + f_equal. rewrite <- (map_id fs) at 1. apply map_ext_in. intros g Hg. now rewrite N.
    + cbn [andb]. destruct (has_code f); [reflexivity|]. cbn [orb]. symmetry. apply not_true_is_false. intros X.
      apply existsb_exists in X as (g & G1 & G2). rewrite N in G2 by easy. discriminate.
  - rewrite IH. reflexivity.
Qed.

Definition gstep (s : state) (b : Z * ftype * Z) : state :=
  let '(n, t, c) := b in
  let (fs, e) := generate_at internal n t c (err s) (funs s) in
  {| vars := vars s; funs := fs; bodies := bodies s; err := e |}.

Lemma generate_at_err n t b : forall fs, snd (generate_at internal n t b true fs) = true.
Proof.
  induction fs as [|f fs IH]; [reflexivity|]. cbn [generate_at]. destruct (_ && _).
  - unfold generate_one. now destruct (s_code f).
  - destruct (generate_at internal n t b true fs). exact IH.
Qed.
Lemma gfold_err L : forall s, err s = true -> err (fold_left gstep L s) = true.
Proof.
  induction L as [|[[n t] c] L IH]; intros s E; [exact E|]. cbn [fold_left]. apply IH. unfold gstep. rewrite E.
  pose proof (generate_at_err n t c (funs s)). destruct (generate_at internal n t c true (funs s)). exact H.
Qed.

Definition mine (n : Z) (t : ftype) (L : list (Z * ftype * Z)) : list Z :=
  flat_map (fun b => let '(n', t', c) := b in if (n =? n') && ftype_eqb t t' then [c] else []) L.
Definition run (f : fsym) (bs : list Z) : fsym := fold_left one bs f.
Fixpoint okrun (f : fsym) (bs : list Z) : Prop :=
  match bs with [] => True | b :: bs => s_code f = None /\ okrun (one f b) bs end.

Lemma gfold_ok : forall L s, ForallOrdPairs apart (funs s) -> err s = false -> err (fold_left gstep L s) = false ->
  funs (fold_left gstep L s) = map (fun f => run f (mine (s_name f) (s_type f) L)) (funs s) /\
  vars (fold_left gstep L s) = vars s /\
  forall f, In f (funs s) -> okrun f (mine (s_name f) (s_type f) L).
Proof.
  induction L as [|[[n t] c] L IH]; intros s A E E'.
  - cbn. rewrite map_id. auto.
  - cbn [fold_left] in *.
    assert (Es : err (gstep s (n, t, c)) = false).
    { destruct (err (gstep s (n, t, c))) eqn:X; [|reflexivity]. apply (gfold_err L) in X. congruence. }
    assert (Eg : gstep s (n, t, c) =
      {| vars := vars s; funs := map (fun f => if hit n t f then one f c else f) (funs s); bodies := bodies s;
         err := existsb (fun f => hit n t f && has_code f) (funs s) |}).
    { unfold gstep. rewrite E, (generate_at_ok n t c _ A). reflexivity. }
    rewrite Eg in *. cbn [err] in Es.
    set (h := fun f => if hit n t f then one f c else f) in *.
    assert (K : forall f, s_name (h f) = s_name f /\ s_type (h f) = s_type f).
    { intros f. unfold h. destruct (hit n t f); [|auto]. destruct (one_keeps f c) as (? & ? & _). auto. }
    edestruct IH as (I1 & I2 & I3); [..|exact E'|].
    + cbn [funs]. apply FOP_map; [|exact A]. intros a b. unfold apart. destruct (K a) as [-> ->], (K b) as [-> ->]. auto.
    + exact Es.
    + cbn [funs vars] in *. rewrite I1, I2. split; [|split; [reflexivity|]].
      * rewrite map_map. apply map_ext. intros f. destruct (K f) as [-> ->]. cbn [mine flat_map].
        fold (mine (s_name f) (s_type f) L). unfold h. fold (hit n t f). destruct (hit n t f); reflexivity.
      * intros f Hf. specialize (I3 (h f) (in_map _ _ _ Hf)). destruct (K f) as [E1 E2]. rewrite E1, E2 in I3.
        cbn [mine flat_map]. fold (mine (s_name f) (s_type f) L). fold (hit n t f). unfold h in I3. destruct (hit n t f) eqn:H; [|exact I3].
        cbn. split; [|exact I3]. destruct (s_code f) eqn:C; [|reflexivity]. exfalso.
        assert (X : existsb (fun f => hit n t f && has_code f) (funs s) = true); [|congruence].
        apply existsb_exists. exists f. split; [easy|]. unfold has_code. now rewrite H, C.
Qed.

(** What remains after all bodies of one function. *)
Definition skips (t : ftype) : bool := f_external_only t || (fkind_eqb (f_kind t) KExport && negb internal).
Definition for_app (t : ftype) : bool := fkind_eqb (f_kind t) KExport || fkind_eqb (f_kind t) KExternC.

Lemma run_once f bs : s_code f = None -> skips (s_type f) = false -> okrun f bs -> (length bs <= 1)%nat.
Proof.
  intros C S. destruct bs as [|b [|b' bs]]; cbn; try lia. intros (_ & H & _). unfold one, generate_one in H. rewrite C in H.
  unfold skips in S. rewrite S in H. discriminate.
Qed.
Lemma run_keeps bs : forall f, s_name (run f bs) = s_name f /\ s_type (run f bs) = s_type f /\ s_class (run f bs) = s_class f /\
  s_inline (run f bs) = s_inline f.
Proof.
  induction bs as [|b bs IH]; intros f; [auto|]. cbn. fold (run (one f b) bs).
  destruct (IH (one f b)) as (-> & -> & -> & ->). apply one_keeps.
Qed.
Lemma run_single f b : s_code f = None -> s_app f = None -> s_internal f = false -> skips (s_type f) = false ->
  s_code (run f [b]) = Some b /\ s_app (run f [b]) = (if for_app (s_type f) then Some b else None) /\
  s_internal (run f [b]) = (negb (for_app (s_type f)) && (sclass_eqb (s_class f) SStatic || s_inline f)).
Proof.
  intros C A I S. cbn. unfold one, generate_one. rewrite C, A, I. unfold skips in S. rewrite S. cbn [fst s_code s_app s_internal].
  unfold for_app. destruct (fkind_eqb _ KExport || fkind_eqb _ KExternC); cbn; repeat split; try reflexivity; now destruct (sclass_eqb (s_class f) SStatic || s_inline f).
Qed.
End I.

Lemma bodies_for_mine n t h : bodies_for n t h (mine n t (bodies_of h)).
Proof.
  induction h as [|i h IH]; [constructor|]. destruct i as [d|d [b|]].
  - apply B_other; [discriminate|exact IH].
  - cbn. destruct (Z.eqb_spec n (fd_name d)) as [->|N].
    + destruct (ftype_eqb t (fd_type d)) eqn:E; cbn.
      * apply ftype_eqb_spec in E. apply B_body; [easy|now apply same_sym|exact IH].
      * apply B_other; [|exact IH]. intros ? ? [= <- <-]. right. intros Y. apply same_sym, ftype_eqb_spec in Y. congruence.
    + cbn. apply B_other; [|exact IH]. intros ? ? [= <- <-]. left. congruence.
  - apply B_other; [discriminate|exact IH].
Qed.
Lemma bodies_for_fun n t h : forall ls ls', bodies_for n t h ls -> bodies_for n t h ls' -> ls = ls'.
Proof.
  induction h as [|i h IH]; intros ls ls' H H'.
  - inversion H; inversion H'; subst; reflexivity.
  - inversion H as [|d b h1 l1 A1 A2 A3|i1 h1 l1 A1 A2]; subst; inversion H' as [|d' b' h2 l2 B1 B2 B3|i2 h2 l2 B1 B2]; subst.
    + f_equal. now apply IH.
    + destruct (B1 _ _ eq_refl); contradiction.
    + destruct (A1 _ _ eq_refl); contradiction.
    + now apply IH.
Qed.

Lemma mine_same n t t' L : same_type t t' -> mine n t L = mine n t' L.
Proof.
  intros E. unfold mine. apply flat_map_ext. intros [[n' u] c].
  assert (ftype_eqb t u = ftype_eqb t' u) as ->; [|reflexivity].
  destruct (ftype_eqb t u) eqn:A, (ftype_eqb t' u) eqn:B; try reflexivity.
  - apply ftype_eqb_spec in A. assert (Y : same_type t' u) by (eapply same_trans; [apply same_sym|]; eassumption).
    apply ftype_eqb_spec in Y. congruence.
  - apply ftype_eqb_spec in B. assert (Y : same_type t u) by (eapply same_trans; eassumption).
    apply ftype_eqb_spec in Y. congruence.
Qed.

Lemma compile_ok internal h s : compile internal h = Some s ->
  vars_ok h (read h) /\ funs_ok h (read h) /\ vars s = vars (read h) /\
  funs s = map (fun f => run internal f (mine (s_name f) (s_type f) (bodies_of h))) (funs (read h)) /\
  forall f, In f (funs (read h)) -> okrun internal f (mine (s_name f) (s_type f) (bodies_of h)).
Proof.
  unfold compile. cbv zeta. destruct (err (read h)) eqn:E; [discriminate|]. destruct (err (generate internal (read h))) eqn:E'; [discriminate|].
  intros [= <-]. destruct (read_ok h E) as [V F]. split; [easy|]. split; [easy|].
  unfold generate in *. rewrite (fo_bodies _ _ F) in *. fold (gstep internal) in *.
  destruct (gfold_ok internal (bodies_of h) (read h) (fo_pairs _ _ F) E E') as (G1 & G2 & G3). auto.
Qed.

Lemma fun_pair h s n d d' : funs_ok h s -> In d (fun_decls n h) -> In d' (fun_decls n h) ->
  same_type (fd_type d) (fd_type d') \/
  (f_params (fd_type d) <> f_params (fd_type d') /\ f_kind (fd_type d) <> KExport /\ f_kind (fd_type d') <> KExport).
Proof.
  intros F H H'. destruct (fo_all _ _ F n d H) as (f & F1 & F2 & F3), (fo_all _ _ F n d' H') as (f' & F1' & F2' & F3').
  assert (forall f g, In f (funs s) -> In g (funs s) -> f = g \/ apart f g \/ apart g f) as X.
  { intros a b Ha Hb. destruct (ForallOrdPairs_In (fo_pairs _ _ F) a b Ha Hb) as [X|[X|X]]; auto. }
  destruct (X f f' F1 F1') as [<-|A].
  - left. eapply same_trans; [apply same_sym; exact F3|exact F3'].
  - right. destruct F3 as (_ & <- & <- & _), F3' as (_ & <- & <- & _).
    destruct A as [A|A]; destruct A as (A1 & A2 & A3 & _); try congruence; auto.
Qed.

Lemma first_decl n t h d ds : filter (fun d => ftype_eqb t (fd_type d)) (fun_decls n h) = d :: ds ->
  exists h1 b h2, h = h1 ++ IFun d b :: h2 /\ fd_name d = n /\ same_type t (fd_type d) /\
    (forall e, In e (fun_decls n h1) -> ~ same_type t (fd_type e)).
Proof.
  induction h as [|i h IH]; cbn; [discriminate|]. intros H.
  assert (X : (exists b, i = IFun d b /\ fd_name d = n /\ same_type t (fd_type d)) \/
    ((forall e, In e (fun_decls n [i]) -> ~ same_type t (fd_type e)) /\
     filter (fun d => ftype_eqb t (fd_type d)) (fun_decls n h) = d :: ds)).
  { destruct i as [v|f b]; cbn in *; [right; split; [easy|exact H]|].
    destruct (fd_name f =? n) eqn:E; cbn in *; [|right; split; [easy|exact H]].
    destruct (ftype_eqb t (fd_type f)) eqn:T.
    - left. injection H as <- _. exists b. split; [easy|]. split; [now apply Z.eqb_eq|now apply ftype_eqb_spec].
    - right. split; [|exact H]. intros e [<-|[]] Y. apply ftype_eqb_spec in Y. congruence. }
  destruct X as [(b & -> & X1 & X2)|(X1 & X2)]; [exists [], b, h; auto|].
  destruct (IH X2) as (h1 & b & h2 & -> & Y1 & Y2 & Y3). exists (i :: h1), b, h2. split; [reflexivity|]. do 2 (split; [easy|]).
  intros e He. change (i :: h1) with ([i] ++ h1) in He. unfold fun_decls in He. rewrite flat_map_app in He.
  apply in_app_or in He as [He|He]; [now apply X1|now apply Y3].
Qed.
