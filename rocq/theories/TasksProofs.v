(** Sums over frames, groups and logs, and the invariant of the task system. *)
From Coq Require Import ZArith List Bool Arith Lia.
From Verif Require Import TasksModel.
Import ListNotations.
Open Scope Z_scope.

(** ** Lists *)

Lemma unsnoc_some {A} (l : list A) r x : unsnoc l = Some (r, x) -> l = r ++ [x].
Proof.
  unfold unsnoc. destruct (rev l) as [|y q] eqn:E; [discriminate|]. intros H. injection H as <- <-.
  rewrite <- (rev_involutive l), E. reflexivity.
Qed.

Lemma unsnoc_none {A} (l : list A) : unsnoc l = None -> l = [].
Proof.
  unfold unsnoc. destruct (rev l) as [|y q] eqn:E; [|discriminate]. intros _.
  rewrite <- (rev_involutive l), E. reflexivity.
Qed.

Lemma erase_some g l r : erase g l = Some r -> exists p q, l = p ++ g :: q /\ r = p ++ q /\ ~ In g p.
Proof.
  revert r. induction l as [|x l IH]; cbn; intros r H; [discriminate|].
  destruct (Nat.eqb_spec x g) as [->|NE].
  - injection H as <-. exists [], l. auto.
  - destruct (erase g l) as [r0|]; [|discriminate]. injection H as <-.
    destruct (IH r0 eq_refl) as (p & q & -> & -> & Hn). exists (x :: p), q. repeat split; auto.
    intros [X|X]; auto.
Qed.

Lemma erase_in g l : In g l -> exists r, erase g l = Some r.
Proof.
  induction l as [|x l IH]; [contradiction|]. intros H. cbn. destruct (Nat.eqb_spec x g) as [->|NE]; [eauto|].
  destruct H as [H|H]; [congruence|]. destruct (IH H) as (r & ->). cbn. eauto.
Qed.

Lemma upd_length {A} t (x : A) l : length (upd t x l) = length l.
Proof. revert t. induction l as [|y l IH]; intros [|t]; cbn; auto. Qed.

Lemma nth_error_upd_same {A} t (x y : A) l : nth_error l t = Some y -> nth_error (upd t x l) t = Some x.
Proof. revert t. induction l as [|z l IH]; intros [|t] H; cbn in *; try discriminate; auto. Qed.

Lemma nth_error_upd_other {A} t u (x : A) l : u <> t -> nth_error (upd t x l) u = nth_error l u.
Proof. revert t u. induction l as [|z l IH]; intros [|t] [|u] H; cbn in *; auto; try congruence. Qed.

(** ** Sums over frames *)

Fixpoint ws (w : frame -> Z) (fs : list frame) : Z := match fs with [] => 0 | f :: r => w f + ws w r end.
Fixpoint tot (w : frame -> Z) (thr : list (list frame)) : Z := match thr with [] => 0 | f :: r => ws w f + tot w r end.

Lemma tot_upd w t fs' fs thr : nth_error thr t = Some fs -> tot w (upd t fs' thr) = tot w thr - ws w fs + ws w fs'.
Proof.
  revert t. induction thr as [|x thr IH]; intros [|t] H; cbn in *; try discriminate.
  - injection H as ->. lia.
  - rewrite (IH t H). lia.
Qed.

Lemma ws_nonneg w fs : (forall f, 0 <= w f) -> 0 <= ws w fs.
Proof. intros H. induction fs as [|f fs IH]; cbn; [lia|]. specialize (H f). lia. Qed.

Lemma tot_nonneg w thr : (forall f, 0 <= w f) -> 0 <= tot w thr.
Proof. intros H. induction thr as [|x thr IH]; cbn; [lia|]. pose proof (ws_nonneg w x H). lia. Qed.

Lemma ws_in w fs f : (forall f, 0 <= w f) -> In f fs -> w f <= ws w fs.
Proof.
  intros H. induction fs as [|x fs IH]; [contradiction|]. intros [->|HI]; cbn.
  - pose proof (ws_nonneg w fs H). lia.
  - specialize (IH HI). specialize (H x). lia.
Qed.

Lemma tot_stack w thr t fs : (forall f, 0 <= w f) -> nth_error thr t = Some fs -> ws w fs <= tot w thr.
Proof.
  intros H. revert t. induction thr as [|x thr IH]; intros [|t] E; cbn in *; try discriminate.
  - injection E as ->. pose proof (tot_nonneg w thr H). lia.
  - specialize (IH t E). pose proof (ws_nonneg w x H). lia.
Qed.

Lemma ws_pos w fs : 0 < ws w fs -> exists f, In f fs /\ 0 < w f.
Proof.
  induction fs as [|f fs IH]; cbn; intros H; [lia|].
  destruct (Z_lt_dec 0 (w f)) as [P|P]; [exists f; auto|].
  destruct IH as (f' & I & P'); [lia|]. exists f'. auto.
Qed.

Lemma tot_pos w thr : 0 < tot w thr -> exists t fs f, nth_error thr t = Some fs /\ In f fs /\ 0 < w f.
Proof.
  induction thr as [|x thr IH]; cbn; intros H; [lia|].
  destruct (Z_lt_dec 0 (ws w x)) as [P|P].
  - destruct (ws_pos w x P) as (f & I & Q). exists 0%nat, x, f. auto.
  - destruct IH as (t & fs & f & E & I & Q); [lia|]. exists (S t), fs, f. auto.
Qed.

Lemma tot_le w w' thr : (forall fs, In fs thr -> ws w fs <= ws w' fs) -> tot w thr <= tot w' thr.
Proof.
  induction thr as [|x thr IH]; cbn; intros H; [lia|].
  specialize (IH (fun fs I => H fs (or_intror I))). specialize (H x (or_introl eq_refl)). lia.
Qed.

Lemma ws_app w p q : ws w (p ++ q) = ws w p + ws w q.
Proof. induction p as [|f p IH]; cbn; lia. Qed.

Lemma ws_two w fs f f' : (forall f, 0 <= w f) -> In f fs -> In f' fs -> f <> f' -> w f + w f' <= ws w fs.
Proof.
  intros H. induction fs as [|x fs IH]; [contradiction|]. intros [->|A] [->|B] N; cbn.
  - congruence.
  - pose proof (ws_in w fs f' H B). lia.
  - pose proof (ws_in w fs f H A). lia.
  - specialize (IH A B N). specialize (H x). lia.
Qed.

Lemma tot_two w thr t u fs fs' f f' :
  (forall f, 0 <= w f) -> nth_error thr t = Some fs -> nth_error thr u = Some fs' -> In f fs -> In f' fs' -> f <> f' ->
  w f + w f' <= tot w thr.
Proof.
  intros H. revert t u. induction thr as [|x thr IH]; intros [|t] [|u] E E' I I' N; cbn in *; try discriminate.
  - injection E as ->. injection E' as ->. pose proof (ws_two w fs' f f' H I I' N). pose proof (tot_nonneg w thr H). lia.
  - injection E as ->. pose proof (ws_in w fs f H I). pose proof (tot_stack w thr u fs' H E'). pose proof (ws_in w fs' f' H I'). lia.
  - injection E' as ->. pose proof (ws_in w fs' f' H I'). pose proof (tot_stack w thr t fs H E). pose proof (ws_in w fs f H I). lia.
  - specialize (IH t u E E' I I' N). pose proof (ws_nonneg w x H). lia.
Qed.

(** ** The frames of a state *)

Definition fr (thr : list (list frame)) (f : frame) : Prop := exists t fs, nth_error thr t = Some fs /\ In f fs.

(** The frames that are not the first of thread [t], the others of which are [rest]. *)
Definition others (thr : list (list frame)) (t : nat) (rest : list frame) (f : frame) : Prop :=
  In f rest \/ exists u fs, u <> t /\ nth_error thr u = Some fs /\ In f fs.

Lemma others_fr thr t old rest f : nth_error thr t = Some (old ++ rest) -> others thr t rest f -> fr thr f.
Proof.
  intros E [H|(u & fs & N & E' & H)].
  - exists t, (old ++ rest). split; auto. apply in_or_app; auto.
  - exists u, fs. auto.
Qed.

Lemma others_le w thr t old rest f : (forall f, 0 <= w f) -> nth_error thr t = Some (old ++ rest) -> others thr t rest f ->
  w f + ws w old <= tot w thr.
Proof.
  intros H E O. revert t E O. induction thr as [|x thr IH]; intros [|t] E O; cbn in E; try discriminate.
  - injection E as ->. cbn. rewrite ws_app. pose proof (tot_nonneg w thr H). pose proof (ws_nonneg w rest H).
    destruct O as [I|([|u] & fs & N & E' & I)]; [pose proof (ws_in w rest f H I); lia|congruence|].
    cbn in E'. pose proof (tot_stack w thr u fs H E'). pose proof (ws_in w fs f H I). lia.
  - cbn. pose proof (ws_nonneg w x H). destruct O as [I|([|u] & fs & N & E' & I)].
    + specialize (IH t E (or_introl I)). lia.
    + cbn in E'. injection E' as ->. pose proof (ws_in w fs f H I). pose proof (tot_stack w thr t _ H E) as Q.
      rewrite ws_app in Q. pose proof (ws_nonneg w rest H). lia.
    + cbn in E'. assert (u <> t) by congruence. specialize (IH t E (or_intror (ex_intro _ u (ex_intro _ fs (conj H1 (conj E' I)))))). lia.
Qed.

Lemma fr_upd thr t old rest new f : nth_error thr t = Some (old ++ rest) -> fr (upd t (new ++ rest) thr) f ->
  In f new \/ others thr t rest f.
Proof.
  intros E (u & fs & E' & I). destruct (Nat.eq_dec u t) as [->|N].
  - rewrite (nth_error_upd_same _ _ _ _ E) in E'. injection E' as <-. apply in_app_or in I as [I|I]; auto. right. left. auto.
  - rewrite (nth_error_upd_other _ _ _ _ N) in E'. right. right. exists u, fs. auto.
Qed.

Lemma fr_upd_new thr t fs0 fs f : nth_error thr t = Some fs0 -> In f fs -> fr (upd t fs thr) f.
Proof. intros E I. exists t, fs. split; auto. eapply nth_error_upd_same; eauto. Qed.

Lemma tot_fr w thr f : (forall f, 0 <= w f) -> fr thr f -> w f <= tot w thr.
Proof. intros H (t & fs & E & I). pose proof (tot_stack w thr t fs H E). pose proof (ws_in w fs f H I). lia. Qed.

(** A sum that only one frame contributes to. *)
Lemma ws_only h w fs : (forall f, 0 <= h f) -> (forall f, h f = 0 -> w f = 0) -> ws h fs = 0 -> ws w fs = 0.
Proof.
  intros H Z0. induction fs as [|f fs IH]; cbn; intros E; auto.
  pose proof (ws_nonneg h fs H). specialize (H f) as Hf. rewrite Z0, IH; lia.
Qed.
Lemma tot_only h w thr : (forall f, 0 <= h f) -> (forall f, h f = 0 -> w f = 0) -> tot h thr = 0 -> tot w thr = 0.
Proof.
  intros H Z0. induction thr as [|x thr IH]; cbn; intros E; auto.
  pose proof (ws_nonneg h x H). pose proof (tot_nonneg h thr H). rewrite (ws_only h w x), IH; auto; lia.
Qed.
Lemma tot_single h w thr t f rest : (forall f, 0 <= h f) -> (forall f, h f = 0 -> w f = 0) ->
  nth_error thr t = Some (f :: rest) -> 1 <= h f -> tot h thr <= 1 -> tot w thr = w f.
Proof.
  intros H Z0 E Hf. revert t E. induction thr as [|x thr IH]; intros [|t] E T; cbn in *; try discriminate.
  - injection E as ->. cbn in *. pose proof (ws_nonneg h rest H). pose proof (tot_nonneg h thr H).
    rewrite (ws_only h w rest), (tot_only h w thr); auto; lia.
  - pose proof (tot_stack h thr t _ H E) as Q. cbn in Q. pose proof (ws_nonneg h rest H). pose proof (ws_nonneg h x H).
    rewrite (ws_only h w x), (IH t E); auto; lia.
Qed.

(** ** Sums over groups *)

Fixpoint gsum (f : nat -> Z) (n : nat) : Z := match n with O => 0 | S n => f n + gsum f n end.

Lemma gsum_ext f f' n : (forall g, (g < n)%nat -> f g = f' g) -> gsum f n = gsum f' n.
Proof. induction n as [|n IH]; cbn; intros H; auto. rewrite H, IH; auto. Qed.

Lemma gsum_upd f f' n g : (g < n)%nat -> (forall h, h <> g -> f h = f' h) -> gsum f' n = gsum f n - f g + f' g.
Proof.
  intros Hg H. induction n as [|n IH]; [lia|]. cbn. destruct (Nat.eq_dec g n) as [->|NE].
  - rewrite (gsum_ext f' f n); [lia|]. intros h Hh. symmetry. apply H. lia.
  - rewrite IH by lia. rewrite (H n) by auto. lia.
Qed.

Lemma gsum_nonneg f n : (forall g, 0 <= f g) -> 0 <= gsum f n.
Proof. intros H. induction n as [|n IH]; cbn; [lia|]. specialize (H n). lia. Qed.

Lemma gsum_zero f n : (forall g, (g < n)%nat -> f g = 0) -> gsum f n = 0.
Proof. intros H. induction n as [|n IH]; cbn; [lia|]. rewrite H, IH; auto. Qed.

(** ** Counting in lists *)

Fixpoint cnt {A} (p : A -> bool) (l : list A) : Z :=
  match l with [] => 0 | x :: r => (if p x then 1 else 0) + cnt p r end.

Lemma cnt_nonneg {A} (p : A -> bool) l : 0 <= cnt p l.
Proof. induction l as [|x l IH]; cbn; [lia|]. destruct (p x); lia. Qed.
Lemma cnt_app {A} (p : A -> bool) l l' : cnt p (l ++ l') = cnt p l + cnt p l'.
Proof. induction l as [|x l IH]; cbn; [lia|]. rewrite IH. lia. Qed.
Lemma cnt_ext {A} (p q : A -> bool) l : (forall x, In x l -> p x = q x) -> cnt p l = cnt q l.
Proof. induction l as [|x l IH]; cbn; intros H; auto. rewrite (H x), IH; auto. Qed.
Lemma cnt_pos {A} (p : A -> bool) l : 0 < cnt p l -> exists x, In x l /\ p x = true.
Proof.
  induction l as [|x l IH]; cbn; intros H; [lia|]. destruct (p x) eqn:E; [exists x; auto|].
  destruct IH as (y & I & P); [lia|]. exists y; auto.
Qed.
Lemma cnt_in {A} (p : A -> bool) l x : In x l -> p x = true -> 1 <= cnt p l.
Proof.
  induction l as [|y l IH]; [contradiction|]. intros [->|H] P; cbn; [rewrite P; pose proof (cnt_nonneg p l); lia|].
  specialize (IH H P). destruct (p y); lia.
Qed.
Lemma cnt_upd {A} (p : A -> bool) i (x y : A) l : nth_error l i = Some y ->
  cnt p (upd i x l) = cnt p l - (if p y then 1 else 0) + (if p x then 1 else 0).
Proof.
  revert i. induction l as [|z l IH]; intros [|i] H; cbn in *; try discriminate.
  - injection H as ->. lia.
  - rewrite (IH i H). lia.
Qed.

(** The task with index [i], of [n], in a range. *)
Lemma cnt_seq (i : Z) n s :
  cnt (fun k => Z.of_nat k =? i) (seq s n) = if (Z.of_nat s <=? i) && (i <? Z.of_nat s + Z.of_nat n) then 1 else 0.
Proof.
  revert s. induction n as [|n IH]; intros s; cbn [seq cnt].
  - destruct (Z.leb_spec (Z.of_nat s) i), (Z.ltb_spec i (Z.of_nat s + Z.of_nat 0)); cbn; lia.
  - rewrite IH. destruct (Z.eqb_spec (Z.of_nat s) i), (Z.leb_spec (Z.of_nat s) i), (Z.leb_spec (Z.of_nat (S s)) i),
      (Z.ltb_spec i (Z.of_nat s + Z.of_nat (S n))), (Z.ltb_spec i (Z.of_nat (S s) + Z.of_nat n)); cbn; lia.
Qed.

Lemma cnt_map {A B} (p : B -> bool) (f : A -> B) l : cnt p (map f l) = cnt (fun x => p (f x)) l.
Proof. induction l as [|x l IH]; cbn; auto. rewrite IH. auto. Qed.

Lemma range_in base n j : In j (range base n) <-> base <= j < base + n.
Proof.
  unfold range. rewrite in_map_iff. split.
  - intros (k & <- & H). apply in_seq in H. lia.
  - intros H. exists (Z.to_nat (j - base)). split; [lia|]. apply in_seq. lia.
Qed.

Lemma range_length base n : 0 <= n -> Z.of_nat (length (range base n)) = n.
Proof. intros H. unfold range. rewrite map_length, seq_length. lia. Qed.

(** ** Weights *)

Definition nat_eqb_opt (o : option nat) (g : nat) : bool := match o with Some h => Nat.eqb h g | None => false end.
Definition b2z (b : bool) : Z := if b then 1 else 0.

(** holds the group g *)
Definition w_hold (g : nat) (f : frame) : Z :=
  match f with FAct a => b2z (nat_eqb_opt (a_handle a) g) | _ => 0 end.
(** holds the group g and is activation x *)
Definition w_own (g x : nat) (f : frame) : Z :=
  match f with FAct a => b2z (nat_eqb_opt (a_handle a) g && Nat.eqb (a_id a) x) | _ => 0 end.
Definition w_id (x : nat) (f : frame) : Z := match f with FAct a => b2z (Nat.eqb (a_id a) x) | _ => 0 end.
(** runs, or has run, a task of g *)
Definition dec_of (f : frame) : option nat :=
  match f with
  | FAct a => match a_pc a with PDec g => Some g | _ => None end
  | FWork _ (WDec g) => Some g
  | _ => None
  end.
Definition w_dec (g : nat) (f : frame) : Z := b2z (nat_eqb_opt (dec_of f) g).
(** tasks pushed but not yet added to numUnfinishedTasks *)
Definition w_add (g : nat) (f : frame) : Z :=
  match f with
  | FAct a => match a_pc a with PAdd n => if nat_eqb_opt (a_handle a) g then n else 0 | _ => 0 end
  | _ => 0
  end.
Definition data_eqb (d e : data) : bool := Nat.eqb (fst d) (fst e) && Nat.eqb (snd d) (snd e).
(** will push the task (d, i) *)
Definition w_pend (d : data) (i : Z) (f : frame) : Z :=
  match f with
  | FAct a => match a_pc a with
              | PPush l e _ => b2z (data_eqb e d && (0 <=? i) && (i <? count_of l))
              | _ => 0
              end
  | _ => 0
  end.
(** executes the task (d, i) *)
Definition w_run (d : data) (i : Z) (f : frame) : Z :=
  match f with
  | FAct a => match a_task a with Some (_, e, j) => b2z (data_eqb e d && (j =? i)) | None => 0 end
  | _ => 0
  end.
(** executes a task of g *)
Definition w_task (g : nat) (f : frame) : Z :=
  match f with
  | FAct a => match a_task a with Some (h, _, _) => b2z (Nat.eqb h g) | None => 0 end
  | _ => 0
  end.

(** waiting tasks (d, i) of a group *)
Definition is_task (d : data) (i : Z) (x : info) : bool := data_eqb (i_data x) d && (i_index x =? i).
Definition waiting (d : data) (i : Z) (x : group) : Z := cnt (fun j => is_task d i (g_info x j)) (g_wait x).

Definition is_launch (d : data) (i : Z) (e : event) : bool :=
  match e with EvLaunch e _ c0 c1 c2 => data_eqb e d && (0 <=? i) && (i <? c0 * c1 * c2) | _ => false end.
Definition is_start (d : data) (i : Z) (e : event) : bool := match e with EvStart x _ _ _ => is_task d i x | _ => false end.
Definition is_end (d : data) (i : Z) (e : event) : bool := match e with EvEnd e j => data_eqb e d && (j =? i) | _ => false end.

Lemma data_eqb_eq d e : data_eqb d e = true <-> d = e.
Proof.
  destruct d as [a b], e as [c f]. unfold data_eqb. cbn. rewrite andb_true_iff, !Nat.eqb_eq. split.
  - intros [-> ->]. auto.
  - intros H. injection H. auto.
Qed.
Lemma data_eqb_refl d : data_eqb d d = true. Proof. apply data_eqb_eq. auto. Qed.

Lemma b2z_range b : 0 <= b2z b <= 1. Proof. destruct b; cbn; lia. Qed.
Lemma w_hold_nn g f : 0 <= w_hold g f. Proof. destruct f; cbn; [apply b2z_range|lia]. Qed.
Lemma w_own_nn g x f : 0 <= w_own g x f. Proof. destruct f; cbn; [apply b2z_range|lia]. Qed.
Lemma w_id_nn x f : 0 <= w_id x f. Proof. destruct f; cbn; [apply b2z_range|lia]. Qed.
Lemma w_dec_nn g f : 0 <= w_dec g f. Proof. apply b2z_range. Qed.
Lemma w_pend_nn d i f : 0 <= w_pend d i f.
Proof. destruct f as [a|]; cbn; [destruct (a_pc a); try lia; apply b2z_range|lia]. Qed.
Lemma w_run_nn d i f : 0 <= w_run d i f.
Proof. destruct f as [a|]; cbn; [destruct (a_task a) as [[[? ?] ?]|]; try lia; apply b2z_range|lia]. Qed.
Lemma w_task_nn g f : 0 <= w_task g f.
Proof. destruct f as [a|]; cbn; [destruct (a_task a) as [[[? ?] ?]|]; try lia; apply b2z_range|lia]. Qed.

(** ** The invariant *)

Definition launch_ok (l : launch) : Prop :=
  0 < l_c0 l /\ 0 < l_c1 l /\ 0 < l_c2 l /\ count_of l < 2 ^ 30.

Definition launched (log : list event) (x : info) : Prop :=
  In (EvLaunch (i_data x) (i_func x) (i_c0 x) (i_c1 x) (i_c2 x)) log /\ 0 <= i_index x < task_count x.

(** What is known of one activation from its program counter. *)
Definition act_ok (s : st) (a : act) : Prop :=
  match a_pc a with
  | PRun => True
  | PRead l _ => a_handle a = None /\ launch_ok l
  | PCas l i g => a_handle a = None /\ launch_ok l
  | PFill l => a_handle a <> None /\ launch_ok l
  | PPush l d base =>
      launch_ok l /\ fst d = a_id a /\
      exists g, a_handle a = Some g /\ base + count_of l = g_next (s_grp s g) /\ 0 <= base /\
        forall j, base <= j < base + count_of l ->
          g_info (s_grp s g) j = {| i_func := l_func l; i_data := d; i_index := j - base;
                                    i_c0 := l_c0 l; i_c1 := l_c1 l; i_c2 := l_c2 l |} /\
          launched (s_log s) (g_info (s_grp s g) j)
  | PAdd n => a_handle a <> None /\ 0 < n
  | PPost _ | PSync | PHelp | PDec _ => a_handle a <> None
  | PPut _ | PPutCas _ =>
      exists g, a_handle a = Some g /\ g_wait (s_grp s g) = [] /\ tot (w_dec g) (s_thr s) = 0
  end.

Definition task_of (f : frame) : option (nat * data * Z) := match f with FAct a => a_task a | _ => None end.

(** A frame above another one runs a task the lower one has taken. *)
Fixpoint stack_ok (fs : list frame) : Prop :=
  match fs with
  | [] => True
  | f :: r =>
      stack_ok r /\
      match r with
      | [] => task_of f = None
      | f' :: _ => exists a g d i, f = FAct a /\ a_task a = Some (g, d, i) /\ dec_of f' = Some g /\
                     match f' with FAct b => (a_id b < a_id a)%nat | _ => True end
      end
  end.

Definition slots (g : nat) (s : st) : Z := cnt (fun x => nat_eqb_opt x g) (s_free s).

Record inv (s : st) : Prop := {
  v_one : forall g, tot (w_hold g) (s_thr s) + slots g s <= 1;
  v_new : forall g, (s_new s <= g)%nat -> tot (w_hold g) (s_thr s) + slots g s <= 0;
  v_unf : forall g, g_unf (s_grp s g) + tot (w_add g) (s_thr s) = Z.of_nat (length (g_wait (s_grp s g))) + tot (w_dec g) (s_thr s);
  v_held : forall g, 0 < Z.of_nat (length (g_wait (s_grp s g))) + tot (w_dec g) (s_thr s) -> tot (w_hold g) (s_thr s) = 1;
  v_nodup : NoDup (s_active s);
  v_active : forall g, In g (s_active s) <-> g_wait (s_grp s g) <> [];
  v_in : forall g, g_in (s_grp s g) = true <-> g_wait (s_grp s g) <> [];
  v_wait : forall g j, In j (g_wait (s_grp s g)) ->
             0 <= j < g_next (s_grp s g) /\ launched (s_log s) (g_info (s_grp s g) j) /\
             tot (w_own g (fst (i_data (g_info (s_grp s g) j)))) (s_thr s) = 1;
  v_next : forall g, 0 <= g_next (s_grp s g) <= max_tasks;
  v_task : forall f g d i, fr (s_thr s) f -> task_of f = Some (g, d, i) ->
             tot (w_own g (fst d)) (s_thr s) = 1 /\
             match f with FAct a => (fst d < a_id a)%nat | _ => True end;
  v_act : forall a, fr (s_thr s) (FAct a) -> act_ok s a;
  v_stack : forall t fs, nth_error (s_thr s) t = Some fs -> stack_ok fs;
  v_id : forall x, tot (w_id x) (s_thr s) <= 1;
  v_idnew : forall x, (s_act s <= x)%nat -> tot (w_id x) (s_thr s) = 0;
  v_count : forall d i, cnt (is_launch d i) (s_log s) =
              cnt (is_start d i) (s_log s) + gsum (fun g => waiting d i (s_grp s g)) (s_new s) + tot (w_pend d i) (s_thr s);
  v_running : forall d i, cnt (is_start d i) (s_log s) = cnt (is_end d i) (s_log s) + tot (w_run d i) (s_thr s);
  v_ln : forall a ln f c0 c1 c2, In (EvLaunch (a, ln) f c0 c1 c2) (s_log s) ->
           (a < s_act s)%nat /\
           forall b, fr (s_thr s) (FAct b) -> a_id b = a -> (ln < a_ln b)%nat;
  v_once : forall d i, cnt (is_launch d i) (s_log s) <= 1;
  v_free : length (s_free s) = max_free
}.
