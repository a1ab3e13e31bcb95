(** C86: the pseudo-random numbers of the standard library.

    Statements only; the proofs are in RngProofs.v and the specification in RngSpec.v. *)
From Coq Require Import ZArith List Bool Lia.
From Verif Require Import RngModel RngSpec RngProofs.
Import ListNotations.
Local Open Scope Z_scope.

(** After seed_rng with any seed and any number of calls, random gives an unsigned int32. *)
Theorem C86_random_range : forall seed n, 0 <= seed < 2 ^ 32 ->
  0 <= snd (random (after n (seed_rng seed))) < 2 ^ 32.
Proof. intros seed n H. apply random_range, after_words, seed_words. exact H. Qed.

(** frandom gives a multiple of 2^-23 that is at least 0 and less than 1 (2^149 units of 2^-149),
    namely the low 23 bits of the number random would have given. *)
Theorem C86_frandom_range : forall seed n, 0 <= seed < 2 ^ 32 ->
  let st := after n (seed_rng seed) in
  fst (frandom st) = fst (random st) /\
  snd (frandom st) = snd (random st) mod 2 ^ 23 * 2 ^ 126 /\ 0 <= snd (frandom st) < 2 ^ 149.
Proof.
  intros seed n H st. split; [unfold frandom; now destruct (random st)|].
  assert (E : snd (frandom st) = snd (random st) mod 2 ^ 23 * 2 ^ 126)
    by (apply frandom_value, after_words, seed_words; exact H).
  split; [exact E|]. rewrite E. pose proof (Z.mod_pos_bound (snd (random st)) (2 ^ 23) ltac:(lia)). lia.
Qed.

Example C86_range_used : 0 <= 12345 < 2 ^ 32 /\
  numbers 3 (seed_rng 12345) = [667945768; 1310426035; 2805848953] /\
  snd (frandom (seed_rng 12345)) = 5245736 * 2 ^ 126.
Proof. split; [lia | split; vm_compute; reflexivity]. Qed.

(** Each program instance that runs seed_rng gets, in the calls it takes part in, the numbers of
    the uniform generator with its seed, whatever the other instances and the masks do: instances
    with the same seed see the same sequence. *)
Theorem C86_instances : forall mask seed old masks l, mask l = true ->
  own l masks (vrun masks (vseed_rng mask seed old)) =
  numbers (length (filter (fun m => m l) masks)) (seed_rng (seed l)).
Proof. intros mask seed old masks l M. rewrite vrun_own, vseed_lane, M. reflexivity. Qed.

(** An instance that does not run seed_rng keeps its sequence. *)
Theorem C86_instances_off : forall mask seed old masks l, mask l = false ->
  own l masks (vrun masks (vseed_rng mask seed old)) =
  numbers (length (filter (fun m => m l) masks)) (lane_state old l).
Proof. intros mask seed old masks l M. rewrite vrun_own, vseed_lane, M. reflexivity. Qed.

Example C86_instances_used :
  let masks := [fun _ => true; fun l => Nat.eqb l 1; fun _ => true] in
  let old := {| v1 := fun _ => 5; v2 := fun _ => 9; v3 := fun _ => 77; v4 := fun _ => 200 |} in
  let xs := vrun masks (vseed_rng (fun l => Nat.leb l 2) (fun l => 1000 + Z.of_nat l) old) in
  own 1 masks xs = numbers 3 (seed_rng 1001) /\ own 2 masks xs = numbers 2 (seed_rng 1002).
Proof. split; vm_compute; reflexivity. Qed.

(** The generator needs four words that are not too small.  A state that meets the condition meets
    it after any number of calls, and seed_rng makes such a state from every seed but 1, the
    multiples of 2^16 and the eight numbers around 0xbeeff00d.  Missing: that the sequence is as
    long as the literature says. *)
Theorem C86_alive_partial : forall seed n, 0 <= seed < 2 ^ 32 ->
  seed mod 2 ^ 16 <> 0 -> seed <> 1 -> seed / 8 <> 3203395597 / 8 ->
  alive (after n (seed_rng seed)).
Proof.
  intros seed n H A B C. apply after_alive; [now apply seed_words | now apply seed_alive].
Qed.

Example C86_alive_used :
  0 <= 2 < 2 ^ 32 /\ 2 mod 2 ^ 16 <> 0 /\ 2 <> 1 /\ 2 / 8 <> 3203395597 / 8 /\ alive (seed_rng 2).
Proof. unfold alive, seed_rng. cbn [z1 z2 z3 z4]. repeat split; vm_compute; congruence. Qed.

(** The seeds from which seed_rng makes a state that meets the condition are exactly all but 0, 1,
    the eight numbers around 0xbeeff00d, k * 2^16 for k below 16 and k * 2^24 for k below 128. *)
Theorem C86_good_seeds : forall seed, 0 <= seed < 2 ^ 32 ->
  (alive (seed_rng seed) <->
   2 <= seed /\ seed / 8 <> 3203395597 / 8 /\
   ~ (seed mod 2 ^ 16 = 0 /\ seed / 2 ^ 16 < 16) /\ ~ (seed mod 2 ^ 24 = 0 /\ seed / 2 ^ 24 < 128)).
Proof. exact seed_exact. Qed.

Example C86_good_seeds_used :
  0 <= 2 ^ 24 * 5 < 2 ^ 32 /\ ~ alive (seed_rng (2 ^ 24 * 5)) /\ z4 (seed_rng (2 ^ 24 * 5)) = 5.
Proof.
  split; [lia | split; [|vm_compute; reflexivity]].
  intros (_ & _ & _ & A). vm_compute in A. now apply A.
Qed.

(** The seed of the documentation's example, [seed_rng(&state, 1)], is one of the others: the first
    of the four words is 0 after the first call and for ever, so the generator is weaker than it is
    said to be. *)
Theorem C86_documented_seed_refuted : forall n, z1 (after (S n) (seed_rng 1)) = 0.
Proof. intros n. apply dead_forever. cbn. lia. Qed.

(** With seed 0 three of the four words are 0 for ever, and every number repeats 27 bits of the
    number before, two places further left: the numbers are not random at all. *)
Theorem C86_seed_zero_refuted : forall n i, 5 <= i < 32 ->
  Z.testbit (snd (random (after (S n) (seed_rng 0)))) i =
  Z.testbit (snd (random (after n (seed_rng 0)))) (i - 2).
Proof. exact zero_copies. Qed.

Example C86_seed_zero_used : map (fun x => Z.shiftr x 20) (numbers 4 (seed_rng 0)) <> [0; 0; 0; 0] /\
  5 <= 31 < 32.
Proof. split; [vm_compute; congruence | lia]. Qed.

(** A bad seed also spoils one of the words for the seed 0xbeeff00d, whose second word starts at 0
    and stays there. *)
Theorem C86_beef_seed_refuted : forall n, z2 (after n (seed_rng 3203395597)) = 0.
Proof.
  intros n. assert (E : z2 (seed_rng 3203395597) = 0) by (vm_compute; reflexivity).
  revert E. generalize (seed_rng 3203395597). induction n as [|n IH]; intros st E; [exact E|].
  cbn [after]. apply IH. cbn [random fst z2]. rewrite E. vm_compute. reflexivity.
Qed.

Print Assumptions C86_random_range.
Print Assumptions C86_frandom_range.
Print Assumptions C86_instances.
Print Assumptions C86_instances_off.
Print Assumptions C86_alive_partial.
Print Assumptions C86_good_seeds.
Print Assumptions C86_documented_seed_refuted.
Print Assumptions C86_seed_zero_refuted.
Print Assumptions C86_beef_seed_refuted.
