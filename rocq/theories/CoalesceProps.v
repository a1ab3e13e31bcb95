(** Gather coalescing (C35). *)

From Coq Require Import ZArith List Bool Lia.
From Verif Require Import Bits CoalesceModel CoalesceSpec CoalesceProofs CoalesceProofs3 CoalesceProofs4.
Import ListNotations.
Open Scope Z_scope.

(** The vectors put together from the wide loads are those the gathers of the
    group read. *)
Theorem C35_values_partial (strict : bool) (n : nat) (e : env) (mem : memory) (first : gather) (group : list gather) :
  In first group ->
  (forall g, In g group -> same_call first g = true /\ full n g /\ plain g /\ no_overflow e g) ->
  width_ok n (length group) -> no_halves strict group ->
  coalesce strict n e mem group = Some (map (gathered mem e) group).
Proof. exact (coalesce_ok strict n e mem first group). Qed.

(** Every gather of a block has the value it had, whichever the pass puts
    together and wherever their loads are done. *)
Theorem C35_block_partial (strict : bool) (n : nat) (all_on uniform : nat -> bool) (block : list inst)
  (e : env) (mem : memory) (pos : nat) :
  alone block -> n = 4%nat \/ n = 8%nat \/ n = 16%nat ->
  (forall g, In (Gather g) block -> full n g /\ plain g /\ no_overflow e g) ->
  (forall first, no_halves strict (group_of (coalesce_pass all_on uniform block) first block)) ->
  value_after strict n (coalesce_pass all_on uniform block) e mem block pos = value_before e mem block pos.
Proof. exact (block_ok strict n all_on uniform block e mem pos). Qed.

(** The loads read only bytes that lie between two elements the gathers read
    and that are less than four elements apart ... *)
Theorem C35_reads_between (offsets : list Z) (ops : list op) (base : Z) (o : op) (a : Z) :
  select_loads offsets = Some ops -> In o ops -> In a (load_reads base o) ->
  exists x y, In x offsets /\ In y offsets /\ y - x <= 3 /\ base + 4 * x <= a <= base + 4 * y + 3.
Proof. exact (reads_between offsets ops base o a). Qed.

(** ... so they cause no page faults the gathers would not. *)
Theorem C35_no_new_faults (mapped : Z -> Prop) (offsets : list Z) (ops : list op) (base : Z) (o : op) (a : Z) :
  paged mapped ->
  (forall x k, In x offsets -> 0 <= k < 4 -> mapped (wrapu 64 (base + 4 * x + k))) ->
  select_loads offsets = Some ops -> In o ops -> In a (load_reads base o) -> mapped (wrapu 64 a).
Proof. exact (no_fault mapped offsets ops base o a). Qed.

(** Loads are found for every set of offsets, of the sizes there is code for;
    every offset is in one of them and none in two. *)
Theorem C35_loads (offsets : list Z) : exists ops, select_loads offsets = Some ops /\
  (forall o, In o ops -> In (count o) [1; 2; 4; 8]) /\
  (forall x, In x offsets -> exists o, In o ops /\ start o <= x < start o + count o) /\
  forall i j oi oj z, nth_error ops i = Some oi -> nth_error ops j = Some oj ->
    start oi <= z < start oi + count oi -> start oj <= z < start oj + count oj -> i = j.
Proof.
  destruct (select_loads_ok offsets) as (ops & E & _ & Sz & Co & _). exists ops. split; [exact E|].
  split; [|split; [exact Co|apply (loaded_once offsets ops E)]].
  intros o Ho. specialize (Sz o Ho). cbn [In]. intuition.
Qed.

(** ** Cases *)

(** x, y and z of four points in an array of structures: three gathers. *)
Definition gxyz (k : Z) : gather :=
  {| func := 0; base := 0; variable := 1; scale := 2; mask := 3; consts := [k; k + 12; k + 24; k + 36] |}.
Definition e0 : env := fun i => match i with 0%nat => 2 ^ 40 | 1%nat => 5 | 2%nat => 4 | _ => 0 end.
Definition some_memory : memory := fun a => a * a.

Example C35_case_values :
  (forall g, In g [gxyz 0; gxyz 4; gxyz 8] ->
     same_call (gxyz 0) g = true /\ full 4 g /\ plain g /\ no_overflow e0 g) /\
  width_ok 4 3 /\ no_halves true [gxyz 0; gxyz 4; gxyz 8] /\
  group_loads [gxyz 0; gxyz 4; gxyz 8] = Some [new_op 0 8; new_op 8 4].
Proof.
  split; [|split; [left; reflexivity|split; [|reflexivity]]].
  - intros g H. cbn [In] in H.
    destruct H as [<-|[<-|[<-|[]]]]; (split; [reflexivity|split; [reflexivity|split]]).
    all: try (intros c C; cbn in C; cbn; repeat (destruct C as [<-|C]; [split; [lia|]|]); [| | | |destruct C]).
    all: try (split; [vm_compute; split; congruence|intros _; vm_compute; split; congruence]).
    all: try (apply Z.mod_divide; [lia|reflexivity]).
  - right; left. intros ops o E Ho. vm_compute in E. injection E as <-. cbn in Ho.
    destruct Ho as [<-|[<-|[]]]; cbn; lia.
Qed.

Example C35_case_block :
  let block := [Gather (gxyz 0); Other; Gather (gxyz 4); Write (fun m => m); Gather (gxyz 8)] in
  map (coalesce_pass (fun _ => true) (fun _ => true) block) (seq 0 5) =
    [Some (0, 0); None; Some (0, 1); None; Some (4, 0)]%nat /\ alone block.
Proof.
  split; [reflexivity|]. intros f mem H. cbn [In] in H. repeat (destruct H as [H|H]; [discriminate H|]). destruct H.
Qed.

(** Gaps: offsets 0, 3, 6, 9 are read with an 8-wide load and a scalar one. *)
Example C35_case_gaps : select_loads [9; 0; 6; 3; 3] = Some [new_op 0 8; new_op 9 1].
Proof. reflexivity. Qed.

(** ** Where coalescing changes the values *)

Definition g4 (f : nat) (l : list Z) : gather :=
  {| func := f; base := 0; variable := 1; scale := 2; mask := 3; consts := l |}.

Lemma differ (v w : option (list vec)) (k : nat) (x : vec -> option Z) :
  match v, w with
  | Some v, Some w => match x (nth k v []), x (nth k w []) with
                      | Some a, Some b => negb (a =? b)
                      | None, None => false
                      | _, _ => true
                      end
  | _, _ => true
  end = true -> w <> None -> v <> w.
Proof.
  intros H N ->. destruct w as [w|]; [|congruence]. destruct (x (nth k w [])); [|discriminate].
  rewrite Z.eqb_refl in H. discriminate H.
Qed.

(** Two gathers on a target of width 32 (with --opt=disable-gathers): half of
    the second result is that of the first gather. *)
Theorem C35_wide_refuted :
  ~ (forall n e mem group, (n = 32%nat \/ n = 64%nat) ->
       (forall g, In g group -> same_call (hd (g4 0 []) group) g = true /\ full n g /\ plain g /\ no_overflow e g) ->
       coalesce false n e mem group = Some (map (gathered mem e) group)).
Proof.
  intro H.
  set (l := map (fun i => 4 * Z.of_nat i) (seq 0 32)).
  assert (P : forall g, In g [g4 0 (map (fun _ => 0) l); g4 0 l] ->
     same_call (g4 0 (map (fun _ => 0) l)) g = true /\ full 32 g /\ plain g /\ no_overflow e0 g).
  { assert (N : forall l, no_overflow e0 (g4 0 l)).
    { intro. split; [split; reflexivity || discriminate|intros _; vm_compute; split; congruence]. }
    intros g G. destruct G as [<-|[<-|[]]]; (split; [reflexivity|split; [reflexivity|split; [|apply N]]]).
    - intros c C. cbn [g4 consts] in C. apply in_map_iff in C as (x & <- & _).
      split; [split; reflexivity || discriminate|apply Z.divide_0_r].
    - intros c C. cbn [g4 consts] in C. unfold l in C. apply in_map_iff in C as (i & <- & I). apply in_seq in I.
      split; [|apply Z.divide_factor_l]. change (2 ^ (width (g4 0 l) - (if is64 (g4 0 l) then 0 else 1))) with (2 ^ 31). lia. }
  specialize (H 32%nat e0 (fun a => a) [g4 0 (map (fun _ => 0) l); g4 0 l] (or_introl eq_refl) P).
  revert H. apply (differ _ _ 1 (fun v => nth 20 v None)); [vm_compute; reflexivity|discriminate].
Qed.

(** A negative constant in a 32-bit gather is taken for a large one. *)
Theorem C35_negative_refuted :
  ~ (forall e mem g, full 4 g -> no_overflow e g ->
       (forall c, In c (consts g) -> 0 <= c < 2 ^ width g /\ (4 | wraps (width g) c)) ->
       coalesce false 4 e mem [g] = Some [gathered mem e g]).
Proof.
  intro H. specialize (H e0 (fun a => a / 2 ^ 32) (g4 0 [2 ^ 32 - 4; 8; 20; 32]) eq_refl).
  assert (N : no_overflow e0 (g4 0 [2 ^ 32 - 4; 8; 20; 32])).
  { split; [vm_compute; split; congruence|intros _; vm_compute; split; congruence]. }
  specialize (H N).
  assert (C : forall c, In c (consts (g4 0 [2 ^ 32 - 4; 8; 20; 32])) ->
     0 <= c < 2 ^ width (g4 0 [2 ^ 32 - 4; 8; 20; 32]) /\ (4 | wraps (width (g4 0 [2 ^ 32 - 4; 8; 20; 32])) c)).
  { intros c C. cbn [g4 consts In] in C. cbn [width is64 func g4 Nat.leb].
    repeat (destruct C as [<-|C]; [split; [vm_compute; split; congruence|apply Z.mod_divide; [lia|reflexivity]]|]).
    destruct C. }
  specialize (H C). revert H.
  apply (differ _ _ 0 (fun v => nth 0 v None)); [vm_compute; reflexivity|discriminate].
Qed.

(** Offsets that are no multiples of the element size are rounded. *)
Theorem C35_unaligned_refuted :
  ~ (forall e mem g, full 4 g -> no_overflow e g -> (forall c, In c (consts g) -> 0 <= c < 2 ^ 31) ->
       coalesce false 4 e mem [g] = Some [gathered mem e g]).
Proof.
  intro H. specialize (H e0 (fun a => a) (g4 0 [2; 10; 18; 26]) eq_refl).
  assert (N : no_overflow e0 (g4 0 [2; 10; 18; 26])).
  { split; [vm_compute; split; congruence|intros _; vm_compute; split; congruence]. }
  specialize (H N).
  assert (C : forall c, In c (consts (g4 0 [2; 10; 18; 26])) -> 0 <= c < 2 ^ 31).
  { intros c C. cbn [g4 consts In] in C. lia. }
  specialize (H C). revert H.
  apply (differ _ _ 0 (fun v => nth 0 v None)); [vm_compute; reflexivity|discriminate].
Qed.

(** The scaled variable offset is computed in 32 bits. *)
Theorem C35_overflow_refuted :
  ~ (forall e mem g, full 4 g -> plain g -> 0 <= e (scale g) <= 8 ->
       coalesce false 4 e mem [g] = Some [gathered mem e g]).
Proof.
  intro H.
  specialize (H (fun i => match i with 0%nat => 2 ^ 40 | 1%nat => 2 ^ 29 | 2%nat => 4 | _ => 0 end) (fun a => a / 2 ^ 31)
                (g4 0 [0; 8; 16; 24]) eq_refl).
  assert (P : plain (g4 0 [0; 8; 16; 24])).
  { intros c C. cbn [g4 consts In] in C. cbn [width is64 func g4 Nat.leb].
    repeat (destruct C as [<-|C]; [split; [vm_compute; split; congruence|apply Z.mod_divide; [lia|reflexivity]]|]).
    destruct C. }
  specialize (H P ltac:(cbn; lia)). revert H.
  apply (differ _ _ 0 (fun v => nth 0 v None)); [vm_compute; reflexivity|discriminate].
Qed.

(** An element that is already in place becomes poison when a two-wide load is
    inserted into the other half of the vector. *)
Theorem C35_poison_refuted :
  ~ (forall e mem g, full 4 g -> plain g -> no_overflow e g ->
       coalesce true 4 e mem [g] = Some [gathered mem e g]).
Proof.
  intro H. specialize (H e0 (fun a => a) (g4 0 [40; 44; 0; 400]) eq_refl).
  assert (P : plain (g4 0 [40; 44; 0; 400])).
  { intros c C. cbn [g4 consts In] in C. cbn [width is64 func g4 Nat.leb].
    repeat (destruct C as [<-|C]; [split; [vm_compute; split; congruence|apply Z.mod_divide; [lia|reflexivity]]|]).
    destruct C. }
  assert (N : no_overflow e0 (g4 0 [40; 44; 0; 400])).
  { split; [vm_compute; split; congruence|intros _; vm_compute; split; congruence]. }
  specialize (H P N). revert H.
  apply (differ _ _ 0 (fun v => nth 2 v None)); [vm_compute; reflexivity|discriminate].
Qed.

(** A gather is moved before a memory barrier. *)
Theorem C35_barrier_refuted :
  ~ (forall n all_on uniform block e mem pos, n = 4%nat ->
       (forall g, In (Gather g) block -> full n g /\ plain g /\ no_overflow e g) ->
       value_after false n (coalesce_pass all_on uniform block) e mem block pos = value_before e mem block pos).
Proof.
  intro H.
  specialize (H 4%nat (fun _ => true) (fun _ => true)
                [Gather (gxyz 0); Fence (fun _ _ => 1); Gather (gxyz 0)] e0 (fun _ => 0) 2%nat eq_refl).
  assert (P : forall g, In (Gather g) [Gather (gxyz 0); Fence (fun _ _ => 1); Gather (gxyz 0)] ->
     full 4 g /\ plain g /\ no_overflow e0 g).
  { intros g G. destruct C35_case_values as [V _].
    assert (Eg : g = gxyz 0).
    { cbn [In] in G. destruct G as [G|[G|[G|[]]]]; try discriminate G; injection G; congruence. }
    destruct (V (gxyz 0) (or_introl eq_refl)) as (_ & A). rewrite Eg. exact A. }
  specialize (H P). vm_compute in H. discriminate H.
Qed.

(** With --opt=force-aligned-memory the wide loads claim an alignment their
    addresses need not have, although the gathered elements are where the base
    pointer is aligned. *)
Theorem C35_alignment_refuted :
  ~ (forall native base offsets ops o, native = 16 -> (native | base) -> select_loads offsets = Some ops -> In o ops ->
       (load_align true native o | base + start o * 4)).
Proof.
  intro H. specialize (H 16 0 [1; 2; 3; 4] [new_op 1 4] (new_op 1 4) eq_refl (Z.divide_0_r _) eq_refl (or_introl eq_refl)).
  apply Z.mod_divide in H; [|cbn; lia]. vm_compute in H. discriminate H.
Qed.

Print Assumptions C35_values_partial.
Print Assumptions C35_block_partial.
Print Assumptions C35_reads_between.
Print Assumptions C35_no_new_faults.
Print Assumptions C35_loads.
