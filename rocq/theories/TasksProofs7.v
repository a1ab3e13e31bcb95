(** Whatever has happened, all functions can still return. *)
From Coq Require Import ZArith List Bool Arith Lia Zwf.
From Verif Require Import TasksModel TasksSpec TasksProofs TasksProofs2 TasksProofs3 TasksProofs4 TasksProofs5 TasksProofs6.
Import ListNotations.
Open Scope Z_scope.

(** Work left in a frame when no new launch is started. *)
Definition pos (n : Z) : Z := Z.max 0 n.
Definition cost (f : frame) : Z :=
  match f with
  | FWork _ WWait => 0
  | FWork _ WTake => 1
  | FWork _ (WDec _) => 1
  | FAct a =>
      match a_pc a with
      | PRun => match a_handle a with None => 1 | Some _ => 202 end
      | PRead l i => 208 + 6 * pos (count_of l) + 2 * pos (66 - Z.of_nat i)
      | PCas l i _ => 209 + 6 * pos (count_of l) + 2 * pos (65 - Z.of_nat i)
      | PFill l => 206 + 6 * pos (count_of l)
      | PPush l _ _ => 205 + 6 * pos (count_of l)
      | PAdd n => 204 + pos n
      | PPost n => 203 + pos n
      | PSync => 200
      | PHelp => 199
      | PDec _ => 201
      | PPut i => 4 + 2 * pos (65 - Z.of_nat i)
      | PPutCas i => 3 + 2 * pos (65 - Z.of_nat i)
      end
  end.

Lemma cost_nn f : 0 <= cost f.
Proof. destruct f as [a|i p]; cbn [cost]; [destruct (a_pc a); try destruct (a_handle a)|destruct p]; unfold pos; lia. Qed.

Definition gw (s : st) : Z := gsum (fun g => Z.of_nat (length (g_wait (s_grp s g)))) (s_new s).
Definition work (s : st) : Z := tot cost (s_thr s) + 5 * gw s.

Lemma work_nn s : 0 <= work s.
Proof.
  unfold work, gw. pose proof (tot_nonneg cost (s_thr s) cost_nn).
  assert (0 <= gsum (fun g => Z.of_nat (length (g_wait (s_grp s g)))) (s_new s)) by (apply gsum_nonneg; intros; lia). lia.
Qed.

Definition less (s : st) (r : result) : Prop := match r with Ok s1 => work s1 < work s | _ => True end.

Lemma less_put s t f f' rest : nth_error (s_thr s) t = Some (f :: rest) -> cost f' < cost f ->
  less s (Ok (put s t (f' :: rest))).
Proof.
  intros HN C. unfold less, work. change (gw (put s t (f' :: rest))) with (gw s). cbn [put s_thr].
  rewrite (tot_upd _ _ _ _ _ HN). cbn [ws]. lia.
Qed.

Lemma gw_set s s1 g : s_new s1 = s_new s -> (g < s_new s)%nat -> (forall h, h <> g -> s_grp s1 h = s_grp s h) ->
  gw s1 = gw s - Z.of_nat (length (g_wait (s_grp s g))) + Z.of_nat (length (g_wait (s_grp s1 g))).
Proof.
  intros E L O. unfold gw. rewrite E.
  rewrite (gsum_upd (fun h => Z.of_nat (length (g_wait (s_grp s h)))) (fun h => Z.of_nat (length (g_wait (s_grp s1 h)))) (s_new s) g L).
  - lia.
  - intros h N. rewrite O; auto.
Qed.

Lemma held_new s g : inv s -> g_wait (s_grp s g) <> [] -> (g < s_new s)%nat.
Proof.
  intros I W. destruct (le_lt_dec (s_new s) g) as [L|L]; auto. pose proof (v_new _ I g L).
  assert (0 <= slots g s) by apply cnt_nonneg.
  assert (tot (w_hold g) (s_thr s) = 1); [|lia]. apply (v_held _ I). destruct (g_wait (s_grp s g)); [congruence|].
  cbn [length]. pose proof (tot_nonneg (w_dec g) (s_thr s) (w_dec_nn g)). lia.
Qed.

Lemma less_start s s0 t f f' rest g w j ti tc : inv s -> nth_error (s_thr s) t = Some (f :: rest) ->
  g_wait (s_grp s g) = w ++ [j] -> s_thr s0 = s_thr s -> s_new s0 = s_new s -> (forall h, h <> g -> s_grp s0 h = s_grp s h) ->
  g_wait (s_grp s0 g) = w -> cost f' <= cost f + 3 -> less s (Ok (start s0 t (f' :: rest) g j ti tc)).
Proof.
  intros I HN W T N O W' C. unfold less, work, start.
  match goal with |- tot cost (s_thr ?x) + _ < _ => change (gw x) with (gw s0) end.
  cbn [with_act with_log put s_thr]. rewrite T, (tot_upd _ _ _ _ _ HN). cbn [ws cost new_act a_pc a_handle].
  assert (L : (g < s_new s)%nat) by (apply held_new; auto; rewrite W; intros X; apply app_eq_nil in X as [_ X]; discriminate).
  rewrite (gw_set s s0 g N L O), W, W', app_length. cbn [length]. lia.
Qed.

Lemma less_take s t f fs rest ti tc : inv s -> nth_error (s_thr s) t = Some (f :: rest) ->
  (forall g, exists f', fs g = f' :: rest /\ cost f' <= cost f + 3) -> less s (take_last s t fs ti tc).
Proof.
  intros I HN FS. unfold take_last. destruct (unsnoc (s_active s)) as [[r g]|] eqn:U; [|exact Logic.I].
  destruct (FS g) as (f' & -> & C).
  destruct (unsnoc (g_wait (s_grp s g))) as [[w j]|] eqn:W; [|exact Logic.I]. apply unsnoc_some in W.
  destruct w as [|z w]; (eapply less_start; eauto; [intros h N; apply set_grp_other; auto|cbn; rewrite set_grp_same; reflexivity]).
Qed.

(** A thread that cannot do anything by itself: it waits for tasks that other threads run. *)
Definition stuck (s : st) (a : act) : Prop :=
  a_pc a = PHelp /\ s_active s = [] /\ exists g, a_handle a = Some g /\ 0 < g_unf (s_grp s g).

Lemma step_less s t fs : inv s -> nth_error (s_thr s) t = Some fs ->
  match fs with
  | [] => True
  | FWork i p :: rest => p <> WWait -> less s (step s t CReturn)
  | FAct a :: rest => a_pc a <> PHelp \/ s_active s <> [] -> less s (step s t CReturn)
  end.
Proof.
  intros I HN. destruct fs as [|[a|i p] rest]; auto.
  - intros NP. unfold step. rewrite HN. pose proof (v_act _ I a (top_fr _ _ _ _ HN)) as AO. unfold act_ok in AO.
    assert (TO : forall a', cost (FAct a') < cost (FAct a) -> less s (Ok (put s t (FAct a' :: rest)))).
    { intros a' C. eapply less_put; eauto. }
    unfold step_act. destruct (a_pc a) as [|l i|l i g|l|l d base|n|n| | |g|i|i] eqn:PC.
    + destruct (a_handle a) eqn:HA.
      * apply TO. cbn. rewrite PC, HA. lia.
      * assert (X : work (put s t rest) < work s).
        { unfold work. change (gw (put s t rest)) with (gw s). cbn [put s_thr]. rewrite (tot_upd _ _ _ _ _ HN). cbn [ws cost].
          rewrite PC, HA. lia. }
        destruct (a_task a) as [[[h d] i]|]; cbn [less]; exact X.
    + destruct (Nat.ltb_spec i max_free) as [L|L].
      * unfold max_free in L. destruct (nth i (s_free s) None); apply TO; cbn [cost set_pc a_pc]; rewrite PC; unfold pos; lia.
      * unfold less, work. cbn [put with_new s_thr]. rewrite (tot_upd _ _ _ _ _ HN). cbn [ws].
        assert (G : gw (put (with_new s) t (FAct (set_handle a (Some (s_new s)) (PFill l)) :: rest)) = gw s).
        { unfold gw. cbn [put with_new s_new s_grp gsum]. rewrite set_grp_same. cbn [new_group g_wait length Z.of_nat].
          rewrite Z.add_0_l. apply gsum_ext. intros h Hh. rewrite set_grp_other by lia. auto. }
        rewrite G. cbn [cost set_handle a_pc]. rewrite PC. unfold pos. lia.
    + destruct (nth i (s_free s) None) as [h|] eqn:E; [|apply TO; cbn [cost set_pc a_pc]; rewrite PC; unfold pos; lia].
      assert (L : (i < max_free)%nat) by (rewrite <- (v_free _ I); eapply nth_some_lt; eauto). unfold max_free in L.
      unfold less, work.
      match goal with |- tot cost (s_thr ?x) + 5 * gw ?y < _ => assert (G : gw y = gw s) by (destruct (Nat.eqb h g); reflexivity);
        assert (T : s_thr x = upd t (FAct (set_handle a (Some h) (PFill l)) :: rest) (s_thr s)) by (destruct (Nat.eqb h g); reflexivity) end.
      rewrite G, T, (tot_upd _ _ _ _ _ HN). cbn [ws cost set_handle a_pc]. rewrite PC. unfold pos. lia.
    + destruct (a_handle a) as [g|] eqn:HG; [|exact Logic.I].
      destruct (_ || _); [exact Logic.I|]. destruct (_ && _); [exact Logic.I|].
      unfold less, work. destruct (holder s t a rest g I HN HG) as (H1 & S1 & GN & _).
      match goal with |- tot cost (s_thr ?x) + 5 * gw ?y < _ =>
        assert (G : gw y = gw s) by (rewrite (gw_set s y g eq_refl GN ltac:(intros; apply set_grp_other; auto));
          cbn [with_log put with_grp s_grp]; rewrite set_grp_same; cbn [fill g_wait]; lia) end.
      rewrite G. cbn [with_log put with_grp s_thr]. rewrite (tot_upd _ _ _ _ _ HN). cbn [ws cost a_pc]. rewrite PC. lia.
    + destruct AO as (LO & FD & g & HG & _). rewrite HG. pose proof (launch_pos l LO) as LP.
      destruct (holder s t a rest g I HN HG) as (H1 & S1 & GN & _). unfold less, work.
      match goal with |- tot cost (s_thr ?x) + 5 * gw ?y < _ =>
        assert (G : gw y = gw s + count_of l);
        [rewrite (gw_set s y g); [|destruct (g_in (s_grp s g)); reflexivity|auto|
           intros; destruct (g_in (s_grp s g)); apply set_grp_other; auto]; 
         assert (W : g_wait (s_grp y g) = g_wait (s_grp s g) ++ range base (count_of l))
           by (destruct (g_in (s_grp s g)); cbn [put with_active with_grp s_grp]; rewrite set_grp_same; reflexivity);
         rewrite W, app_length, Nat2Z.inj_add, range_length; lia|
         assert (T : s_thr x = upd t (FAct (set_pc a (PAdd (count_of l))) :: rest) (s_thr s)) by (destruct (g_in (s_grp s g)); reflexivity)] end.
      rewrite G, T, (tot_upd _ _ _ _ _ HN). cbn [ws cost set_pc a_pc]. rewrite PC. unfold pos. lia.
    + destruct (a_handle a) as [g|] eqn:HG; [|exact Logic.I]. destruct (holder s t a rest g I HN HG) as (H1 & S1 & GN & _).
      unfold less, work.
      match goal with |- tot cost (s_thr ?x) + 5 * gw ?y < _ =>
        assert (G : gw y = gw s) by (rewrite (gw_set s y g eq_refl GN ltac:(intros; apply set_grp_other; auto));
          cbn [put with_grp s_grp]; rewrite set_grp_same; cbn [set_unf g_wait]; lia) end.
      rewrite G. cbn [put with_grp s_thr]. rewrite (tot_upd _ _ _ _ _ HN). cbn [ws cost set_pc a_pc]. rewrite PC. lia.
    + destruct (Z.ltb_spec 0 n).
      * unfold less, work. match goal with |- _ + 5 * gw ?y < _ => change (gw y) with (gw s) end.
        cbn [put with_sem s_thr]. rewrite (tot_upd _ _ _ _ _ HN). cbn [ws cost set_pc a_pc]. rewrite PC. unfold pos. lia.
      * apply TO. cbn [cost set_pc a_pc a_handle]. rewrite PC. unfold pos. destruct (a_handle a); lia.
    + destruct (a_handle a) as [g|] eqn:HG; [|exact Logic.I]. destruct (0 <? g_unf (s_grp s g)).
      * apply TO. cbn. rewrite PC. lia.
      * destruct (g_in (s_grp s g)); [exact Logic.I|]. destruct (holder s t a rest g I HN HG) as (H1 & S1 & GN & _).
        unfold less, work.
        match goal with |- tot cost (s_thr ?x) + 5 * gw ?y < _ =>
          assert (G : gw y = gw s) by (rewrite (gw_set s y g eq_refl GN ltac:(intros; apply set_grp_other; auto));
            cbn [put with_log with_grp s_grp]; rewrite set_grp_same; cbn [reset g_wait]; lia) end.
        rewrite G. cbn [put with_log with_grp s_thr]. rewrite (tot_upd _ _ _ _ _ HN). cbn [ws cost set_pc a_pc]. rewrite PC. unfold pos. lia.
    + destruct NP as [NP|NP]; [congruence|]. destruct (a_handle a) as [g|] eqn:HG; [|exact Logic.I].
      destruct (unsnoc (g_wait (s_grp s g))) as [[w j]|] eqn:W.
      * apply unsnoc_some in W.
        destruct w as [|z w]; [destruct (erase g (s_active s)); [|exact Logic.I]|];
          (eapply less_start; eauto; [intros h N; apply set_grp_other; auto|cbn; rewrite set_grp_same; reflexivity|cbn; rewrite PC; lia]).
      * destruct (s_active s) eqn:E; [congruence|]. eapply less_take; eauto.
        intros h. eexists. split; [reflexivity|]. cbn. rewrite PC. lia.
    + unfold less, work.
      match goal with |- tot cost (s_thr ?x) + 5 * gw ?y < _ => assert (G : gw y = gw s) end.
      { unfold gw. cbn [put with_grp s_new s_grp]. apply gsum_ext. intros h _. destruct (Nat.eq_dec h g) as [->|N].
        - rewrite set_grp_same. reflexivity.
        - rewrite set_grp_other; auto. }
      rewrite G. cbn [put with_grp s_thr]. rewrite (tot_upd _ _ _ _ _ HN). cbn [ws cost set_pc a_pc]. rewrite PC. lia.
    + destruct AO as (g & HG & _). destruct (Nat.ltb_spec i max_free) as [L|L].
      * unfold max_free in L. destruct (nth i (s_free s) None); apply TO; cbn [cost set_pc a_pc]; rewrite PC; unfold pos; lia.
      * apply TO. cbn [cost set_handle a_pc a_handle]. rewrite PC. unfold pos. lia.
    + destruct AO as (g & HG & _). destruct (nth i (s_free s) None) as [h|] eqn:E.
      * assert (L : (i < max_free)%nat) by (rewrite <- (v_free _ I); eapply nth_some_lt; eauto). unfold max_free in L.
        apply TO. cbn [cost set_pc a_pc]. rewrite PC. unfold pos. lia.
      * unfold less, work. match goal with |- _ + 5 * gw ?y < _ => change (gw y) with (gw s) end.
        cbn [put with_free s_thr]. rewrite (tot_upd _ _ _ _ _ HN). cbn [ws cost set_handle a_pc a_handle]. rewrite PC. unfold pos. lia.
  - intros NP. unfold step. rewrite HN. destruct p as [| |g]; [congruence| |]; cbn [step_work].
    + destruct (s_active s) eqn:E.
      * eapply less_put; eauto. cbn. lia.
      * eapply less_take; eauto. intros h. eexists. split; [reflexivity|]. cbn. lia.
    + unfold less, work.
      match goal with |- tot cost (s_thr ?x) + 5 * gw ?y < _ => assert (G : gw y = gw s) end.
      { unfold gw. cbn [put with_grp s_new s_grp]. apply gsum_ext. intros h _. destruct (Nat.eq_dec h g) as [->|N].
        - rewrite set_grp_same. reflexivity.
        - rewrite set_grp_other; auto. }
      rewrite G. cbn [put with_grp s_thr]. rewrite (tot_upd _ _ _ _ _ HN). cbn [ws cost]. lia.
Qed.
