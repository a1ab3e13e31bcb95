(** Liveness of whole calls. *)
From Coq Require Import ZArith List Bool Arith Lia.
From Verif Require Import Bits SpmdModel SpmdSpec SpmdRel SpmdProofs SpmdIf SpmdLoop SpmdSwitch SpmdMain SpmdCall
  SpmdGuard SpmdLive SpmdLive2 SpmdLive3 SpmdLive4 SpmdLive5 SpmdLive6 SpmdLive7.
Import ListNotations.

(** A common amount of time for all active lanes. *)
Lemma common_fuel fs f us (vs : list (lane -> Z)) (G : gkey -> lane -> Z) (fm : mask) w :
  (forall l, l < w -> fm l = true ->
     exists n r, lane_call n fs l f us (map (fun v => v l) vs) (fun g => G g l) = Some r) ->
  exists n, forall l, l < w -> fm l = true ->
     lane_call n fs l f us (map (fun v => v l) vs) (fun g => G g l) <> None.
Proof.
  induction w as [|w IH]; intros H.
  - exists 0. lia.
  - destruct IH as (n & Hn); [intros l Hl; apply H; lia|].
    destruct (fm w) eqn:E.
    + destruct (H w (Nat.lt_succ_diag_r w) E) as (m & r & Hm).
      exists (n + m). intros l Hl Hf. destruct (Nat.eq_dec l w) as [->|NE].
      * rewrite (lane_call_mono m (n + m) _ _ _ _ _ _ _ ltac:(lia) Hm). discriminate.
      * specialize (Hn l ltac:(lia) Hf).
        destruct (lane_call n fs l f us (map (fun v => v l) vs) (fun g => G g l)) as [r0|] eqn:E0; [|congruence].
        rewrite (lane_call_mono n (n + m) _ _ _ _ _ _ _ ltac:(lia) E0). discriminate.
    + exists n. intros l Hl Hf. apply Hn; auto. destruct (Nat.eq_dec l w) as [->|NE]; [congruence|lia].
Qed.

Lemma live_call o f ok on fm us vs G :
  prog_ok (o_funs o) = true -> guarded_call ok on (o_funs o) f = true ->
  (on = true -> forall l, l < o_width o -> fm l = true) ->
  (exists l, l < o_width o /\ fm l = true) ->
  (forall l, l < o_width o -> fm l = true ->
     exists n r, lane_call n (o_funs o) l f us (map (fun v => v l) vs) (fun g => G g l) = Some r) ->
  exists N rv G' tr, gang_call N o f fm us vs G = Some (rv, G', tr) /\ live (o_width o) tr.
Proof.
  intros HP HG ON (l0 & W0 & F0) HL. apply common_fuel in HL as (n & HL).
  unfold guarded_call in HG. apply andb_prop in HG as [HG1 HG2].
  destruct (nth_error (o_funs o) f) as [fd|] eqn:EF; [|discriminate].
  pose proof (guarded_prog_closed ok on o HG1) as HCL. pose proof (prog_ok_nth _ _ _ HP EF) as CF.
  destruct (Rfun o n fd (entry_mask o (f_body fd) fm) (bind 0 us (fun _ => 0%Z)) (bind 0 vs (fun _ _ => 0%Z)) G []
              {| g_on := on; g_ok := ok |} HP (proj1 (liveness o HP n)) HCL CF HG2) as (N & out & st' & E & L'); auto.
  - intros X l Hl. rewrite entry_mask_eq; auto.
  - exists l0. rewrite entry_mask_eq; auto.
  - intros k ev [].
  - intros l W Fm. rewrite entry_mask_eq in Fm by auto. specialize (HL l W Fm). unfold lane_call in HL. rewrite EF in HL.
    eexists. split; [|split; [|split; [|intros Y; apply HL; rewrite Y; reflexivity]]].
    + repeat split.
    + intros x. cbn. rewrite <- (map_id vs) at 1. apply bind_map; auto.
    + intros u. reflexivity.
  - destruct (post_fun o N fd _ _ out st' (proj1 (simulation o HP N)) CF E) as (O & _); [intros l; repeat split|].
    exists N, (v_rv st'), (v_G st'), (v_tr st'). split; auto. unfold gang_call. rewrite EF.
    change (vexec N o (fun_cx (entry_mask o (f_body fd) fm) (dep_of (f_body fd))) (f_body fd) (call_state us vs G) = Some (out, st')) in E.
    rewrite E. destruct O as [-> | ->]; reflexivity.
Qed.

Lemma gang_call_det n m o f fm us vs G r r' :
  gang_call n o f fm us vs G = Some r -> gang_call m o f fm us vs G = Some r' -> r = r'.
Proof.
  unfold gang_call. destruct (nth_error (o_funs o) f) as [fd|]; [|discriminate].
  destruct (vexec n _ _ _ _) as [[oa sa]|] eqn:Ea; [|discriminate].
  destruct (vexec m _ _ _ _) as [[ob sb]|] eqn:Eb; [|discriminate].
  pose proof (vexec_det _ _ _ _ _ _ _ _ Ea Eb) as X. injection X as -> ->. destruct ob; congruence.
Qed.

Lemma lane_trace_in l tr k ev z : In (k, ev) tr -> ev l = Some z -> lane_trace l tr <> [].
Proof.
  induction tr as [|[k' e'] tr IH]; [contradiction|]. intros [X|X] E; cbn.
  - injection X as -> ->. rewrite E. discriminate.
  - destruct (e' l); [discriminate|auto].
Qed.

Lemma live_trace n o f ok on fm us vs G rv G' tr :
  prog_ok (o_funs o) = true -> guarded_call ok on (o_funs o) f = true ->
  (on = true -> forall l, l < o_width o -> fm l = true) ->
  (exists l, l < o_width o /\ fm l = true) ->
  gang_call n o f fm us vs G = Some (rv, G', tr) ->
  forall k ev, In (k, ev) tr -> exists l z, l < o_width o /\ fm l = true /\ ev l = Some z.
Proof.
  intros HP HG ON SM H k ev HI.
  destruct (gang_call_sim _ _ _ _ _ _ _ _ _ _ HP H) as (Fr & Ac).
  destruct (live_call o f ok on fm us vs G HP HG ON SM) as (N & rv2 & G2 & tr2 & E & L).
  { intros l Hl Hf. destruct (Ac l Hl Hf) as (Gl & X & _). eauto. }
  pose proof (gang_call_det _ _ _ _ _ _ _ _ _ _ H E) as X. injection X as <- <- <-.
  destruct (L k ev HI) as (l & W & NE). destruct (ev l) as [z|] eqn:EV; [|congruence].
  exists l, z. split; auto. split; auto. destruct (fm l) eqn:F; auto.
  destruct (Fr l W F) as [_ T]. exfalso. eapply lane_trace_in; eauto.
Qed.
