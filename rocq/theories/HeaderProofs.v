(** Proofs about the layout of declarations in headers (C65). *)
From Coq Require Import List Bool Arith Lia.
Import ListNotations.
From Verif Require Import CastModel HeaderModel HeaderSpec.
Local Open Scope nat_scope.

Section TyInd.
Variable P : ty -> Prop.
Hypothesis HS : forall x s, P (TScalar x s).
Hypothesis HV : forall x n b, P (TVector x n b).
Hypothesis HA : forall n t, P t -> P (TArray n t).
Hypothesis HT : forall x nm al ms, Forall P ms -> P (TStruct x nm al ms).
Fixpoint hty_ind (t : ty) : P t :=
  match t with
  | TScalar x s => HS x s
  | TVector x n b => HV x n b
  | TArray n t => HA n t (hty_ind t)
  | TStruct x nm al ms => HT x nm al ms ((fix go l : Forall P l := match l with [] => Forall_nil _ | t :: l => Forall_cons t (hty_ind t) (go l) end) ms)
  end.
End TyInd.

Section Proofs.
Variables (W dtw : nat) (psize : nat) (salign : sc -> nat) (valign : nat -> nat).
Hypothesis ABI : abi W dtw psize salign valign.
Notation layout := (layout W dtw psize salign valign).
Notation offset := (offset W dtw psize salign valign).
Notation decl := (decl W dtw psize salign valign).
Notation c_layout := (c_layout psize salign).
Notation c_offset := (c_offset psize salign).

Definition member (v : var) (t : ty) : nat * cty :=
  let d := decl false v t in
  let d := if negb (is_array t) && negb (is_pointer t) && is_varying v t && negb (is_struct t) then
             match d with CArray n c => CArray n (CArray W c) | _ => CArray W d end
           else d in
  (if aligned_member v t then snd (layout v t) else 0, d).
Definition c_of (m : nat * cty) : nat * nat := (fst (c_layout (snd m)), Nat.max (fst m) (snd (c_layout (snd m)))).
Definition good (v : var) (t : ty) : Prop := c_of (member v t) = layout v t /\ forall p, c_offset (snd (member v t)) p = offset v t p.

Lemma eff_bound : forall v x, v <> Unb -> eff v x <> Unb.
Proof. intros v [] H; cbn; congruence. Qed.
Lemma shift0 : forall k r, shift k r = match r with Some (o, s) => Some (k + o, s) | None => None end.
Proof. reflexivity. Qed.

(** Lists of members. *)
Definition go_l (v : var) (p : list nat) := fix go (k i : nat) (ms : list ty) {struct ms} : option (nat * sc) :=
  match ms with
  | [] => None
  | t :: ms =>
      let o := round_up k (snd (layout v t)) in
      match i with O => shift o (offset v t p) | S i => go (o + fst (layout v t)) i ms end
  end.
Definition go_c (p : list nat) := fix go (k i : nat) (ms : list (nat * cty)) {struct ms} : option (nat * sc) :=
  match ms with
  | [] => None
  | (a, c) :: ms =>
      let o := round_up k (Nat.max a (snd (c_layout c))) in
      match i with O => shift o (c_offset c p) | S i => go (o + fst (c_layout c)) i ms end
  end.
Lemma go_eq : forall v p ms k i, Forall (good v) ms -> go_c p k i (map (member v) ms) = go_l v p k i ms.
Proof.
  induction ms as [|t ms IH]; intros k i F; auto. inversion F as [|? ? (G1 & G2) F2]; subst. unfold go_c, go_l. cbn [map]. fold (go_c p). fold (go_l v p).
  destruct (member v t) as (a, c) eqn:M. unfold c_of in G1. cbn [fst snd] in G1, G2. rewrite <- G1. cbn [fst snd].
  destruct i; [rewrite G2; auto|]. apply IH. auto.
Qed.
Lemma ls_eq : forall v ms, Forall (good v) ms ->
  map (fun m : nat * cty => match m with (k, c) => (fst (c_layout c), Nat.max k (snd (c_layout c))) end) (map (member v) ms) = map (layout v) ms.
Proof.
  intros v ms F. induction F as [|t ms (G1 & G2) F IH]; auto. cbn [map]. rewrite IH. f_equal. rewrite <- G1. destruct (member v t); auto.
Qed.
Lemma end_eq : forall ls k, c_end k ls = l_fields k ls.
Proof. induction ls as [|(a, b) ls IH]; intros k; cbn; auto. Qed.

Definition c_struct (v : var) (al : nat) (ms : list ty) : cty :=
  CStruct (if negb (al =? 0) then al else if existsb (aligned_member v) ms then snd (layout v (TStruct Unb 0 0 ms)) else 0) (map (member v) ms).
Lemma struct_ok : forall v ms, ms <> [] -> Forall (good v) ms ->
  c_layout (c_struct v 0 ms) = l_struct (map (layout v) ms) /\
  forall p, c_offset (c_struct v 0 ms) p = match p with [] => None | i :: p => go_l v p 0 i ms end.
Proof.
  intros v ms N F. split.
  - unfold c_struct. cbn [negb Nat.eqb HeaderSpec.c_layout]. rewrite (ls_eq _ _ F), end_eq. unfold l_struct.
    replace (Nat.max (if existsb (aligned_member v) ms then snd (layout v (TStruct Unb 0 0 ms)) else 0)
      (fold_right Nat.max 1 (map snd (map (layout v) ms)))) with (l_align (map (layout v) ms)); auto.
    unfold l_align. destruct (existsb (aligned_member v) ms).
    + cbn [HeaderModel.layout eff]. destruct ms; [congruence|]. unfold l_struct. cbn [snd]. unfold l_align. lia.
    + lia.
  - intros [|i p]; auto. apply (go_eq v p ms 0 i F).
Qed.
Lemma layout_struct : forall v x nm al ms, ms <> [] -> layout v (TStruct x nm al ms) = l_struct (map (layout (eff v x)) ms).
Proof. intros v x nm al [|t ms] N; [congruence|]. reflexivity. Qed.
Lemma offset_struct : forall v x nm al ms p, offset v (TStruct x nm al ms) p = match p with [] => None | i :: p => go_l (eff v x) p 0 i ms end.
Proof. intros v x nm al ms [|i p]; reflexivity. Qed.

Lemma main : forall t v, v <> Unb ->
  (plain true v t = true ->
     fst (c_layout (decl true v t)) = fst (layout v t) /\ snd (c_layout (decl true v t)) <= snd (layout v t) /\
     (is_varying v t = false -> snd (c_layout (decl true v t)) = snd (layout v t)) /\ forall p, c_offset (decl true v t) p = offset v t p) /\
  (plain false v t = true -> good v t).
Proof.
  destruct ABI as (A1 & A2 & A3 & A4).
  induction t as [x s|x n b|n t IH|x nm al ms IH] using hty_ind; intros v B.
  - pose proof (eff_bound v x B) as B'. split; intros P.
    + unfold is_varying. cbn [HeaderModel.decl HeaderModel.layout HeaderModel.offset variability]. destruct (eff v x) as [| | |w]; [congruence|..]; cbn [c_wrap HeaderSpec.c_layout l_scalar l_array fst snd].
      * split; [auto|]. split; [auto|]. split; [auto|]. intros [|i p]; reflexivity.
      * destruct (A3 s) as (L & R). cbn [l_vector fst snd]. rewrite R. split; [auto|]. split; [auto|]. split; [discriminate|].
        intros [|i [|j p]]; cbn -[Nat.ltb]; auto; destruct (i <? W); cbn; auto; rewrite ?Nat.add_0_r; auto.
      * split; [auto|]. split; [auto|]. split; [auto|].
        intros [|i [|j p]]; cbn -[Nat.ltb]; auto; destruct (i <? w); cbn; auto; rewrite ?Nat.add_0_r; auto.
    + cbn [plain orb] in P. unfold good, member, c_of, aligned_member, is_varying. cbn [HeaderModel.decl HeaderModel.layout HeaderModel.offset variability is_array is_struct negb andb].
      destruct (eff v x) as [| | |w]; [congruence|..].
      * rewrite andb_false_r. cbn [andb]. split; [cbn; auto|]. intros [|i p]; reflexivity.
      * destruct s; try discriminate. cbn [is_pointer negb andb fst snd HeaderSpec.c_layout l_scalar l_vector]. destruct (A3 (SB b)) as (L & R). split; [unfold l_vector; rewrite R; f_equal; lia|].
        intros [|i [|j p]]; cbn -[Nat.ltb]; auto; destruct (i <? W); cbn; auto; rewrite ?Nat.add_0_r; auto.
      * rewrite andb_false_r. cbn [andb]. split; [cbn; auto|]. destruct s; intros [|i [|j p]]; cbn -[Nat.ltb]; auto; destruct (i <? w); cbn; auto; rewrite ?Nat.add_0_r; auto.
  - assert (V : plain false v (TVector x n b) = true ->
       (c_layout (c_vector dtw valign n b) = layout v (TVector x n b) /\ forall p, c_offset (c_vector dtw valign n b) p = offset v (TVector x n b) p) /\ eff v x = Uni).
    { intros P. cbn [plain] in P. apply andb_prop in P. destruct P as (N & P). apply negb_true_iff, Nat.eqb_neq in N.
      cbn [HeaderModel.layout HeaderModel.offset]. destruct (eff v x); try discriminate. split; auto.
      destruct (A4 n b ltac:(lia)) as (L & R). unfold c_vector. cbn [l_vector HeaderSpec.c_layout fst snd]. split.
      - rewrite Nat.max_l by auto. rewrite R. auto.
      - intros [|i [|j p]]; cbn [HeaderSpec.c_offset]; auto; cbn -[Nat.ltb]; destruct (i <? n); cbn; auto; rewrite ?Nat.add_0_r; auto. }
    split; intros P.
    + destruct (V P) as ((E1 & E2) & U). unfold is_varying. cbn [HeaderModel.decl variability]. rewrite U. cbn [c_wrap]. rewrite E1. split; [auto|]. split; [auto|]. split; auto.
    + destruct (V P) as ((E1 & E2) & U). unfold good, member, c_of, aligned_member, is_varying. cbn [HeaderModel.decl variability]. rewrite U. cbn [andb negb is_array is_pointer is_struct fst snd].
      rewrite E1. split; auto. cbn [Nat.max]. destruct (layout v (TVector x n b)); auto.
  - destruct (IH v B) as (Q & _). split; intros P; destruct (Q P) as (Q1 & Q2 & Q3 & Q4).
    + change (decl true v (TArray n t)) with (CArray n (decl true v t)). change (is_varying v (TArray n t)) with (is_varying v t).
      cbn [HeaderSpec.c_layout HeaderModel.layout l_array fst snd]. rewrite Q1. split; [auto|]. split; [auto|]. split; [auto|].
      intros [|i p]; auto. cbn [HeaderSpec.c_offset HeaderModel.offset]. rewrite Q1, Q4. auto.
    + unfold good, member, c_of, aligned_member. cbn [is_array is_struct negb andb]. rewrite andb_true_r.
      change (decl false v (TArray n t)) with (CArray n (decl true v t)). change (is_varying v (TArray n t)) with (is_varying v t).
      cbn [HeaderSpec.c_layout HeaderModel.layout l_array fst snd]. rewrite Q1. split.
      * destruct (is_varying v t); unfold l_array; f_equal; [lia|]. rewrite Q3; auto.
      * intros [|i p]; auto. cbn [HeaderSpec.c_offset HeaderModel.offset]. rewrite Q1, Q4. auto.
  - assert (V : forall arr, plain arr v (TStruct x nm al ms) = true ->
      al = 0 /\ ms <> [] /\ (arr = true -> eff v x = Uni) /\ Forall (good (eff v x)) ms).
    { intros arr P. cbn [plain] in P. apply andb_prop in P. destruct P as (P & P4). apply andb_prop in P. destruct P as (P & P3).
      apply andb_prop in P. destruct P as (P1 & P2). apply Nat.eqb_eq in P1. split; auto. split; [destruct ms; [discriminate|congruence]|].
      split; [destruct arr; [destruct (eff v x); auto; discriminate|discriminate]|].
      rewrite forallb_forall in P4. rewrite Forall_forall in *. intros t I1. apply IH; auto. apply eff_bound; auto. }
    split; intros P; destruct (V _ P) as (-> & N & U & F).
    + specialize (U eq_refl). rewrite U in F. destruct (struct_ok _ _ N F) as (S1 & S2).
      assert (E : decl true v (TStruct x nm 0 ms) = c_struct Uni 0 ms) by (cbn [HeaderModel.decl]; rewrite U; reflexivity).
      rewrite E, S1, layout_struct, U by auto. split; [auto|]. split; [auto|]. split; [auto|].
      intros p. rewrite S2, offset_struct, U. auto.
    + destruct (struct_ok _ _ N F) as (S1 & S2). unfold good, member, c_of, aligned_member. cbn [is_struct negb]. rewrite !andb_false_r.
      assert (E : decl false v (TStruct x nm 0 ms) = c_struct (eff v x) 0 ms) by reflexivity.
      cbn [fst snd]. rewrite E, S1, layout_struct by auto. split; [cbn [Nat.max]; destruct (l_struct _); auto|].
      intros p. rewrite S2, offset_struct. auto.
Qed.
End Proofs.
