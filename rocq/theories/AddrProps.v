(** Vector index analyses (C58), decomposition of gather and scatter addresses
    (C37), gathers and scatters that become loads and stores (C59). *)

From Coq Require Import ZArith List Bool Lia.
From Verif Require Import Bits AddrModel AddrSpec AddrProofs AddrProofs2 AddrProofs3 AddrProofs4
  AddrProofs5 AddrProofs6 AddrProofs7.
Import ListNotations.
Open Scope Z_scope.

(** ** C58: the analyses *)

(** An index the compiler calls the same in all lanes is, at every moment of
    every run (no loop-carried vectors). *)
Theorem C58_all_equal_partial (n : nat) (T : nat -> bool * Z) (P : prog) (tr : nat -> env) (f t : nat) (e : exp) :
  well_prog n T P -> run P tr -> well n T true e -> sane n P tr e -> no_phis P e ->
  vector_all_equal n P f e = true -> defined (tr t) e -> lanes_equal (tr t) n e.
Proof. intros HP Hr W Sn Np. exact (code_equal n T P tr e HP Hr W Sn Np t f). Qed.

(** With loop-carried vectors: for the analysis that remembers what it assumed
    about each PHI node (the compiler's own forgets it, see below). *)
Theorem C58_all_equal_loops_partial (n : nat) (T : nat -> bool * Z) (P : prog) (tr : nat -> env) (f t : nat) (e : exp) :
  well_prog n T P -> run P tr -> well n T true e -> sane n P tr e ->
  all_equal n P true f e [] = true -> defined (tr t) e -> lanes_equal (tr t) n e.
Proof. intros HP Hr W Sn. exact (strict_equal n T P tr e HP Hr W Sn t f). Qed.

(** Lane [i] of an index the compiler calls linear is the index of lane 0 plus
    [i] strides. *)
Theorem C58_linear_partial (n : nat) (T : nat -> bool * Z) (P : prog) (tr : nat -> env) (f t : nat) (stride : Z) (e : exp) :
  0 < Z.abs stride < 128 ->
  well_prog n T P -> run P tr -> well n T true e -> sane n P tr e -> smooth n P tr e ->
  no_phis P e ->
  vector_is_linear n P f stride e = true -> defined (tr t) e ->
  lanes_linear (tr t) n stride e.
Proof.
  intros Hs HP Hr W Sn Sm Np. exact (code_linear n T P tr e HP Hr W Sn Np t f stride Sm Hs).
Qed.

Theorem C58_linear_loops_partial (n : nat) (T : nat -> bool * Z) (P : prog) (tr : nat -> env) (f t : nat) (stride : Z) (e : exp) :
  0 < Z.abs stride < 128 ->
  well_prog n T P -> run P tr -> well n T true e -> sane n P tr e -> smooth n P tr e ->
  is_linear n P true f stride e [] = true -> defined (tr t) e ->
  lanes_linear (tr t) n stride e.
Proof.
  intros Hs HP Hr W Sn Sm. exact (strict_linear n T P tr e HP Hr W Sn Sm t f stride Hs).
Qed.

(** *** Cases *)

Definition four (x : Z) : list Z := [x; x; x; x].

Lemma add_ok_four x : 0 <= x < 2 ^ 31 -> add_ok (four x).
Proof.
  intro H. split; [repeat constructor; apply H|]. intros k _ _. left.
  intros a b A B. cbn in A, B. lia.
Qed.

Definition smear (w : Z) (s : exp) : exp := Shuf (Insert (Undef w) s 0) [0; 0; 0; 0]%nat.
Definition no_prog : prog := fun _ => [].

(** A run of one PHI node that takes the value of [a], then that of [b]. *)
Definition env0 (leaf : nat -> nat -> Z) (v : option (nat -> Z)) : env :=
  mkEnv (fun p => match p with O => v | _ => None end) leaf (fun _ => 0) (fun _ _ _ => 0) (fun _ x => x).
Definition first (a : exp) : nat -> Z := eval (env0 (fun _ _ => 0) None) a.
Definition second (a b : exp) : nat -> Z := eval (env0 (fun _ _ => 0) (Some (first a))) b.
Definition two (a b : exp) (t : nat) : env :=
  env0 (fun _ _ => 0) (match t with O => None | 1%nat => Some (first a) | _ => Some (second a b) end).
Definition loop (a b : exp) : prog := fun p => match p with O => [a; b] | _ => [] end.

Lemma two_run a b : defined (env0 (fun _ _ => 0) None) a ->
  defined (env0 (fun _ _ => 0) (Some (first a))) b -> run (loop a b) (two a b).
Proof.
  intros A B. split; [intros [|p]; reflexivity|]. intros t [|p]; [|left; reflexivity].
  destruct t as [|[|t]]; [right; exists a|right; exists b|left; reflexivity];
    cbn [loop In]; auto.
Qed.

Definition lane_numbers : exp := Data 32 [0; 1; 2; 3].

(** An index computed from the lane numbers and a uniform value. *)
Definition plain_index : exp :=
  Bin Shl true 64 (Cast SExt 64 (Bin Add true 32 lane_numbers (smear 32 (Leaf false KOther 32 7))))
      (Data 64 (four 2)).

Example C58_case_plain : forall u : Z, - 1000 <= u <= 1000 ->
  let tr := fun _ : nat => env0 (fun _ _ => u) None in
  run no_prog tr /\ well 4 (fun _ => (true, 32)) true plain_index /\
  sane 4 no_prog tr plain_index /\ smooth 4 no_prog tr plain_index /\ no_phis no_prog plain_index /\
  vector_is_linear 4 no_prog 9 4 plain_index = true /\ defined (tr 0%nat) plain_index /\
  eval (tr 0%nat) plain_index 3 = wrapu 64 (4 * u + 12).
Proof.
  intros u Hu tr.
  assert (Ev : forall l, (l < 4)%nat ->
    wraps 32 (eval (tr 0%nat) (Bin Add true 32 lane_numbers (smear 32 (Leaf false KOther 32 7))) l) = Z.of_nat l + u).
  { intros l Hl. unfold smear, lane_numbers. cbn [eval]. unfold bop_val.
    replace (nth l [0; 0; 0; 0]%nat 0%nat) with 0%nat by (do 4 (destruct l as [|l]; [reflexivity|]); lia).
    cbn [Nat.eqb]. rewrite wrapu_add_r.
    replace (wrapu 32 (nth l [0; 1; 2; 3] 0)) with (Z.of_nat l)
      by (do 4 (destruct l as [|l]; [reflexivity|]); lia).
    rewrite wraps_wrapu by lia. change (e_leaf (tr 0%nat) 7 0) with u. apply wraps_id; [lia|]. unfold in_s. cbn. lia. }
  split; [split; [intros [|p]; reflexivity|intros t p; left; reflexivity]|].
  split; [cbn; repeat split; try lia; repeat constructor; unfold in_u; cbn; lia|].
  split; [intro t; split; [|intros p i []];
    cbn [plain_index smear every]; cbn; intuition (try discriminate; try lia);
    repeat constructor; lia|].
  split.
  { intro t. split; [|intros p i []]. cbn [plain_index smear every]. cbn [no_jump].
    repeat split; try exact Logic.I; try discriminate; cbn [width lane_numbers]; try lia.
    intros _ i Hi.
    assert (G : Z.abs ((Z.of_nat (S i) + u) - (Z.of_nat i + u)) < 2 ^ (32 - 1))
      by (change (2 ^ (32 - 1)) with 2147483648; lia).
    rewrite <- (Ev (S i) ltac:(lia)), <- (Ev i ltac:(lia)) in G. exact G. }
  split; [split; [cbn; tauto|intros p i []]|].
  split; [vm_compute; reflexivity|]. split; [cbn; tauto|].
  change (wrapu 64 (wrapu 64 (wraps 32 (eval (tr 0%nat)
    (Bin Add true 32 lane_numbers (smear 32 (Leaf false KOther 32 7))) 3)) * 2 ^ 2) = wrapu 64 (4 * u + 12)).
  rewrite wrapu_mul_l, (Ev 3%nat ltac:(lia)). f_equal. lia.
Qed.

(** The usual loop: an index that starts with the lane numbers and grows by the
    gang size. *)
Definition counter : exp := Phi true 32 0.
Definition up : exp := Bin Add true 32 counter (Data 32 (four 4)).

Example C58_case_loop :
  let P := loop lane_numbers up in let tr := two lane_numbers up in
  run P tr /\ well_prog 4 (fun _ => (true, 32)) P /\ sane 4 P tr counter /\ smooth 4 P tr counter /\
  is_linear 4 P true 9 1 counter [] = true /\ vector_is_linear 4 P 9 1 counter = true /\
  map (eval (tr 2%nat) counter) [0; 1; 2; 3]%nat = [4; 5; 6; 7].
Proof.
  intros P tr. split; [apply two_run; cbn; [exact Logic.I|split; [discriminate|exact Logic.I]]|].
  split.
  { intros [|p] i; [|intros []]. intros [<-|[<-|[]]]; cbn; repeat split; try lia;
      repeat constructor; unfold in_u; cbn; lia. }
  split.
  { intro t. split; [cbn; tauto|]. intros [|p] i; [|intros []].
    intros [<-|[<-|[]]]; cbn -[add_ok four]; intuition (try discriminate);
      first [apply add_ok_four; lia|repeat constructor; lia]. }
  split.
  { intro t. split; [cbn; tauto|]. intros [|p] i; [|intros []].
    intros [<-|[<-|[]]]; cbn; tauto. }
  repeat split; vm_compute; reflexivity.
Qed.

(** The constants 0, 1, 2, 3 are such as [add_ok] asks for. *)
Example C58_case_constants : add_ok [0; 1; 2; 3].
Proof.
  split; [repeat constructor; lia|]. intros k Hk Q. right.
  destruct (Z.eq_dec k 0) as [->|]; [specialize (Q 0 1); cbn in Q; lia|].
  destruct (Z.eq_dec k 1) as [->|]; [specialize (Q 0 2); cbn in Q; lia|].
  assert (B : 4 <= 2 ^ k) by (change 4 with (2 ^ 2); apply Z.pow_le_mono_r; lia).
  intros x X M j Hj E. specialize (M 3 ltac:(cbn; auto)). rewrite (Z.mod_small 3) in M by lia.
  assert (x = 3) by (cbn in X; destruct X as [<-|[<-|[<-|[<-|[]]]]]; rewrite ?Z.mod_small in M by lia; lia).
  subst x. rewrite Z.mod_small in E by lia.
  destruct (Z.eq_dec j 0) as [->|]; [discriminate E|].
  destruct (Z.eq_dec j 1) as [->|]; [discriminate E|].
  assert (4 <= 2 ^ j) by (change 4 with (2 ^ 2); apply Z.pow_le_mono_r; lia). lia.
Qed.

(** *** Where the analyses are wrong *)

(** An index that changes direction in every iteration is called ascending:
    the list of PHI nodes seen does not say for which stride. *)
Definition back : exp := Bin Sub true 32 (Data 32 (four 3)) counter.

Theorem C58_linear_direction_refuted :
  ~ (forall n T P tr f t stride e,
       0 < Z.abs stride < 128 -> well_prog n T P -> run P tr -> well n T true e ->
       sane n P tr e -> smooth n P tr e ->
       vector_is_linear n P f stride e = true -> defined (tr t) e -> lanes_linear (tr t) n stride e).
Proof.
  intro H.
  specialize (H 4%nat (fun _ => (true, 32)) (loop lane_numbers back) (two lane_numbers back)
                9%nat 2%nat 1 counter).
  assert (X : lanes_linear (two lane_numbers back 2) 4 1 counter).
  { apply H; [lia| |apply two_run; cbn; [exact Logic.I|split; [exact Logic.I|discriminate]]| | | | | ].
    - intros [|p] i; [|intros []]. intros [<-|[<-|[]]]; cbn; repeat split; try lia;
        repeat constructor; unfold in_u; cbn; lia.
    - cbn. repeat split; lia.
    - intro t. split; [cbn; tauto|]. intros [|p] i; [|intros []].
      intros [<-|[<-|[]]]; cbn; intuition (try discriminate; try lia); repeat constructor; lia.
    - intro t. split; [cbn; tauto|]. intros [|p] i; [|intros []].
      intros [<-|[<-|[]]]; cbn; tauto.
    - vm_compute. reflexivity.
    - cbn. discriminate. }
  specialize (X 1%nat ltac:(lia)). vm_compute in X. discriminate X.
Qed.

(** While an index is being shown linear, uses of it count as equal in all
    lanes: x += x & 15 is called linear. *)
Definition grow : exp := Bin Add true 32 counter (Bin And false 32 counter (Data 32 (four 15))).

Theorem C58_linear_uses_refuted :
  ~ (forall n T P tr f t stride e,
       0 < Z.abs stride < 128 -> well_prog n T P -> run P tr -> well n T true e ->
       sane n P tr e -> smooth n P tr e ->
       vector_is_linear n P f stride e = true -> defined (tr t) e -> lanes_linear (tr t) n stride e).
Proof.
  intro H.
  specialize (H 4%nat (fun _ => (true, 32)) (loop lane_numbers grow) (two lane_numbers grow)
                9%nat 2%nat 1 counter).
  assert (X : lanes_linear (two lane_numbers grow 2) 4 1 counter).
  { apply H; [lia| |apply two_run; cbn; [exact Logic.I|repeat split; discriminate]| | | | | ].
    - intros [|p] i; [|intros []]. intros [<-|[<-|[]]]; cbn; repeat split; try lia;
        repeat constructor; unfold in_u; cbn; lia.
    - cbn. repeat split; lia.
    - intro t. split; [cbn; tauto|]. intros [|p] i; [|intros []].
      intros [<-|[<-|[]]]; cbn; intuition (try discriminate; try lia); repeat constructor; lia.
    - intro t. split; [cbn; tauto|]. intros [|p] i; [|intros []].
      intros [<-|[<-|[]]]; cbn; tauto.
    - vm_compute. reflexivity.
    - cbn. discriminate. }
  specialize (X 1%nat ltac:(lia)). vm_compute in X. discriminate X.
Qed.

(** The same with quotients: x starts as the lane number and is tripled; x >> 2
    is called the same in all lanes. *)
Definition triple : exp := Bin Mul true 32 counter (Data 32 (four 3)).
Definition quarter : exp := Bin LShr false 32 counter (Data 32 (four 2)).

Theorem C58_all_equal_loops_refuted :
  ~ (forall n T P tr f t e,
       well_prog n T P -> run P tr -> well n T true e -> sane n P tr e ->
       vector_all_equal n P f e = true -> defined (tr t) e -> lanes_equal (tr t) n e).
Proof.
  intro H.
  specialize (H 4%nat (fun _ => (true, 32)) (loop lane_numbers triple) (two lane_numbers triple)
                9%nat 2%nat quarter).
  assert (X : lanes_equal (two lane_numbers triple 2) 4 quarter).
  { apply H; [|apply two_run; cbn; [exact Logic.I|repeat split; discriminate]| | | | ].
    - intros [|p] i; [|intros []]. intros [<-|[<-|[]]]; cbn; repeat split; try lia;
        repeat constructor; unfold in_u; cbn; lia.
    - cbn. repeat split; try lia; repeat constructor; unfold in_u; cbn; lia.
    - intro t. split.
      + cbn; intuition (try discriminate; try lia); repeat constructor; lia.
      + intros [|p] i; [|intros []].
        intros [<-|[<-|[]]]; cbn; intuition (try discriminate; try lia); repeat constructor; lia.
    - vm_compute. reflexivity.
    - cbn. repeat split; discriminate. }
  specialize (X 0%nat 2%nat ltac:(lia) ltac:(lia)). vm_compute in X. discriminate X.
Qed.

(** Without loops, and with constants that [tame] rules out: 4 + <1, 2, 3, 4>
    shifted right by three is called the same in all lanes (the alignment is
    rounded up from 4 to 4, it should be 8) ... *)
Definition misaligned : exp :=
  Bin LShr false 32 (Bin Add true 32 (smear 32 (SInt 32 4)) (Data 32 [1; 2; 3; 4])) (Data 32 (four 3)).

(** ... and so is <-1, 0, 1, 2> shifted right by three: the quotients are
    rounded towards zero. *)
Definition negative : exp :=
  Bin AShr false 64 (Data 64 [2 ^ 64 - 1; 0; 1; 2]) (Data 64 (four 3)).

Theorem C58_all_equal_constants_refuted :
  ~ (forall n T r f e, well n T true e -> every no_phi false e ->
       vector_all_equal n no_prog f e = true -> lanes_equal r n e).
Proof.
  intro H.
  specialize (H 4%nat (fun _ => (true, 32)) (env0 (fun _ _ => 0) None) 9%nat misaligned).
  assert (X : lanes_equal (env0 (fun _ _ => 0) None) 4 misaligned).
  { apply H.
    - cbn. repeat split; try lia; repeat constructor; unfold in_u; cbn; lia.
    - cbn; tauto.
    - vm_compute. reflexivity. }
  specialize (X 0%nat 3%nat ltac:(lia) ltac:(lia)). vm_compute in X. discriminate X.
Qed.

Theorem C58_all_equal_negative_refuted :
  ~ (forall n T r f e, well n T true e -> every no_phi false e ->
       vector_all_equal n no_prog f e = true -> lanes_equal r n e).
Proof.
  intro H.
  specialize (H 4%nat (fun _ => (true, 32)) (env0 (fun _ _ => 0) None) 9%nat negative).
  assert (X : lanes_equal (env0 (fun _ _ => 0) None) 4 negative).
  { apply H.
    - cbn. repeat split; try lia; repeat constructor; unfold in_u; cbn; lia.
    - cbn; tauto.
    - vm_compute. reflexivity. }
  specialize (X 0%nat 1%nat ltac:(lia) ltac:(lia)). vm_compute in X. discriminate X.
Qed.

(** Values inserted one by one are compared without the widths of inner casts. *)
Definition low (w : Z) : exp := Cast ZExt 32 (Cast Trunc w (Leaf false KOther 32 0)).
Definition mixed : exp :=
  Insert (Insert (Insert (Insert (Undef 32) (low 8) 0) (low 16) 1) (low 16) 2) (low 16) 3.

Theorem C58_all_equal_casts_refuted :
  ~ (forall n T r f e, well n T true e -> every no_phi false e ->
       vector_all_equal n no_prog f e = true -> lanes_equal r n e).
Proof.
  intro H.
  specialize (H 4%nat (fun _ => (true, 32)) (env0 (fun _ _ => 256) None) 9%nat mixed).
  assert (X : lanes_equal (env0 (fun _ _ => 256) None) 4 mixed).
  { apply H.
    - cbn. repeat split; try lia.
    - cbn; tauto.
    - vm_compute. reflexivity. }
  specialize (X 0%nat 1%nat ltac:(lia) ltac:(lia)). vm_compute in X. discriminate X.
Qed.

(** An 8-bit index that wraps and is then widened is called linear. *)
Definition narrow_index : exp :=
  Cast ZExt 32 (Bin Add false 8 (smear 8 (Leaf false KOther 8 0)) (Data 8 [0; 1; 2; 3])).

Theorem C58_linear_wrap_refuted :
  ~ (forall n T r f stride e, 0 < Z.abs stride < 128 -> well n T true e -> every no_phi false e ->
       (forall lane, overflows r e lane = false) ->
       vector_is_linear n no_prog f stride e = true -> lanes_linear r n stride e).
Proof.
  intro H.
  specialize (H 4%nat (fun _ => (true, 32)) (env0 (fun _ _ => 254) None) 9%nat 1 narrow_index).
  assert (X : lanes_linear (env0 (fun _ _ => 254) None) 4 1 narrow_index).
  { apply H.
    - lia.
    - cbn. repeat split; try lia; repeat constructor; unfold in_u; cbn; lia.
    - cbn; tauto.
    - intro lane. cbn [overflows narrow_index smear andb].
      destruct (Nat.eqb (nth lane [0; 0; 0; 0]%nat 0%nat) 0); reflexivity.
    - vm_compute. reflexivity. }
  specialize (X 2%nat ltac:(lia)). vm_compute in X. discriminate X.
Qed.

(** ** C37: base pointer, scale, varying and constant offsets *)

(** The address computed from the parts is the pointer, lane by lane.
    [room] asks that the sums and products that are extended to wider types
    do not leave the narrow ones, however their terms are grouped. *)
Theorem C37_same_address_partial (n : nat) (T : nat -> bool * Z) (r : env) (lane : nat) (native wrap : bool) (ptrs : exp) (k : call) :
  (lane < n)%nat -> well n T true ptrs -> width ptrs = 64 -> every (tame n) false ptrs ->
  splats_add r ptrs -> room r lane Mod ptrs ->
  to_base_offsets n 64 native false wrap ptrs = Some k ->
  In (c_scale k) [1; 2; 4; 8] /\ call_addr r k lane = eval r ptrs lane.
Proof.
  intros Hl W L G Sp R E.
  destruct (decompose_ok n T r lane Hl native wrap ptrs k W L G Sp R E) as (_ & _ & _ & _ & _ & A & _ & B).
  exact (conj A B).
Qed.

(** With 32-bit addressing: when both offsets fit into an int. *)
Theorem C37_same_address_32_partial (n : nat) (T : nat -> bool * Z) (r : env) (lane : nat) (native wrap : bool) (ptrs : exp) (k k' : call) :
  (lane < n)%nat -> well n T true ptrs -> width ptrs = 64 -> every (tame n) false ptrs ->
  splats_add r ptrs -> room r lane Mod ptrs ->
  to_base_offsets n 64 native false wrap ptrs = Some k ->
  to_base_offsets n 64 native true wrap ptrs = Some k' ->
  small 64 (eval r (c_var k) lane) -> small 64 (eval r (c_const k) lane) ->
  call_addr r k' lane = eval r ptrs lane.
Proof.
  intros Hl W L G Sp R E E' S1 S2.
  exact (force32_ok n T r lane Hl native wrap ptrs k k' W L G Sp R E E' (conj S1 S2)).
Qed.

(** Moving further constants out of the varying offsets keeps the address. *)
Theorem C37_more_const_partial (n : nat) (T : nat -> bool * Z) (r : env) (lane : nat) (wrap : bool) (k : call) (w : Z) :
  (lane < n)%nat -> well n T true (c_var k) -> well n T true (c_const k) ->
  width (c_var k) = w -> width (c_const k) = w -> In (c_scale k) [1; 2; 4; 8] ->
  (w = 64 /\ room r lane Mod (c_var k) \/
   w = 32 /\ room r lane Sgn (c_var k) /\
     mag r lane Sgn (c_var k) * c_scale k + Z.abs (wraps 32 (eval r (c_const k) lane)) < 2 ^ 31) ->
  call_addr r (get_more_const n wrap k) lane = call_addr r k lane.
Proof. intro Hl. exact (more_const_ok n T r lane Hl wrap k w). Qed.

(** With --wrap-signed-int, taking an offset apart makes no new poison. *)
Theorem C37_no_new_poison_partial (r : env) (lane : nat) (e c v : exp) :
  split_const true e = (Some c, Some v) ->
  overflows r e lane = false -> overflows r c lane = false /\ overflows r v lane = false.
Proof.
  intros E O. destruct (split_poison r lane e _ _ E) as [A B].
  split; apply not_true_is_false; intro X;
    [rewrite (A c eq_refl X) in O|rewrite (B v eq_refl X) in O]; discriminate O.
Qed.

(** *** Cases *)

Definition base_vec : exp := smear 64 (Leaf false KPtrToInt 64 1).
Definition index32 : exp := Leaf true KOther 32 2.

(** a[i + 3] for an array of 4-byte elements. *)
Definition element : exp :=
  Bin Add false 64 base_vec
    (Bin Mul false 64 (Cast SExt 64 (Bin Add true 32 index32 (Data 32 (four 3)))) (Data 64 (four 4))).

Definition leaves (b x : Z) : env := env0 (fun p _ => match p with 1%nat => b | _ => x end) None.

Example C37_case_parts :
  to_base_offsets 4 64 false false false element =
    Some (mkCall (Leaf false KPtrToInt 64 1) (Cast SExt 64 index32) 4
            (Bin Mul false 64 (Cast SExt 64 (Data 32 (four 3))) (Data 64 (four 4)))) /\
  to_base_offsets 4 64 false true false element =
    Some (mkCall (Leaf false KPtrToInt 64 1) index32 4
            (Cast Trunc 32 (Bin Mul false 64 (Cast SExt 64 (Data 32 (four 3))) (Data 64 (four 4))))).
Proof. split; vm_compute; reflexivity. Qed.

Example C37_case_element :
  well 4 (fun _ => (true, 32)) true element /\ every (tame 4) false element /\
  forall b x lane, 0 <= x < 2 ^ 30 -> (lane < 4)%nat ->
    splats_add (leaves b x) element /\ room (leaves b x) lane Mod element.
Proof.
  split; [cbn; repeat split; try lia; repeat constructor; unfold in_u; cbn; lia|].
  split.
  { cbn -[add_ok four]; intuition (try discriminate);
      first [apply add_ok_four; lia|repeat constructor; lia]. }
  intros b x lane Hx Hl. split; [cbn; tauto|].
  assert (Wx : wraps 32 (wrapu 32 x) = x).
  { rewrite wraps_wrapu by lia. apply wraps_id; [lia|]. unfold in_s. change (32 - 1) with 31.
    change (2 ^ 30) with 1073741824 in Hx. change (2 ^ 31) with 2147483648. lia. }
  assert (N3 : nth lane (four 3) 0 = 3) by (do 4 (destruct lane as [|lane]; [reflexivity|]); lia).
  assert (N4 : nth lane (four 4) 0 = 4) by (do 4 (destruct lane as [|lane]; [reflexivity|]); lia).
  unfold element, base_vec, smear, index32.
  repeat first [ rewrite N3 | rewrite N4
               | progress cbn [room fits is_add whole width mag rd eval small leaves env0 e_leaf]
               | split ]; try exact Logic.I; try discriminate; try lia.
  all: change (wrapu 32 3) with 3; change (wrapu 64 4) with 4; unfold small;
    change (wraps 32 3) with 3; change (wraps 64 4) with 4; rewrite ?Wx;
    change (2 ^ 30) with 1073741824 in Hx; change (2 ^ 31) with 2147483648;
    change (2 ^ (32 - 1)) with 2147483648; change (2 ^ (64 - 1)) with 9223372036854775808; try lia.
Qed.

(** *** Where the decomposition is wrong *)

Lemma refute (a b : Z) : (a =? b) = false -> a = b -> False.
Proof. intros H ->. rewrite Z.eqb_refl in H. discriminate H. Qed.

(** zext(i + 1): the 1 is added after widening. *)
Definition wrapped_index : exp :=
  Bin Add false 64 base_vec (Cast ZExt 64 (Bin Add false 32 index32 (Data 32 (four 1)))).

Theorem C37_wrapped_index_refuted :
  ~ (forall n T r lane native wrap ptrs k,
       (lane < n)%nat -> well n T true ptrs -> width ptrs = 64 -> every (tame n) false ptrs ->
       overflows r ptrs lane = false ->
       to_base_offsets n 64 native false wrap ptrs = Some k -> call_addr r k lane = eval r ptrs lane).
Proof.
  intro H.
  specialize (H 4%nat (fun _ => (true, 32)) (leaves 4096 (2 ^ 32 - 1)) 0%nat false false wrapped_index).
  eapply refute; [|eapply H; [lia| |reflexivity| |vm_compute; reflexivity|vm_compute; reflexivity]];
    [vm_compute; reflexivity| |].
  - cbn; repeat split; try lia; repeat constructor; unfold in_u; cbn; lia.
  - cbn -[add_ok four]; intuition (try discriminate);
      first [apply add_ok_four; lia|repeat constructor; lia].
Qed.

(** sext((x - 1) + (y - 1)): no step overflows, but x + y does. *)
Definition regrouped : exp :=
  Bin Add false 64 base_vec
    (Cast SExt 64 (Bin Add true 32 (Bin Add true 32 index32 (Data 32 (four (2 ^ 32 - 1))))
                                   (Bin Add true 32 index32 (Data 32 (four (2 ^ 32 - 1)))))).

Theorem C37_regrouped_refuted :
  ~ (forall n T r lane native wrap ptrs k,
       (lane < n)%nat -> well n T true ptrs -> width ptrs = 64 ->
       overflows r ptrs lane = false ->
       to_base_offsets n 64 native false wrap ptrs = Some k -> call_addr r k lane = eval r ptrs lane).
Proof.
  intro H.
  specialize (H 4%nat (fun _ => (true, 32)) (leaves 4096 (2 ^ 30)) 0%nat false false regrouped).
  eapply refute; [|eapply H; [lia| |reflexivity|vm_compute; reflexivity|vm_compute; reflexivity]];
    [vm_compute; reflexivity|].
  cbn; repeat split; try lia; repeat constructor; unfold in_u; cbn; lia.
Qed.

(** (x - 2^30) << 1 with x = 2^30 does not overflow; x << 1, with the same
    flags, does. *)
Theorem C37_poison_refuted :
  ~ (forall r lane e c v, split_const false e = (Some c, Some v) ->
       overflows r e lane = false -> overflows r v lane = false).
Proof.
  intro H.
  specialize (H (leaves 0 (2 ^ 30)) 0%nat
    (Bin Shl true 32 (Bin Add true 32 index32 (Data 32 (four (2 ^ 32 - 2 ^ 30)))) (Data 32 (four 1)))
    _ _ eq_refl).
  vm_compute in H. discriminate (H eq_refl).
Qed.

(** A factor of 2^32 + 4 becomes a factor of 4. *)
Definition far_apart : exp :=
  Bin Add false 64 base_vec (Bin Mul true 64 (Leaf true KOther 64 2) (Data 64 (four (2 ^ 32 + 4)))).

Theorem C37_factor_refuted :
  ~ (forall n T r lane native wrap ptrs k,
       (lane < n)%nat -> well n T true ptrs -> width ptrs = 64 -> every (tame n) false ptrs ->
       overflows r ptrs lane = false ->
       to_base_offsets n 64 native false wrap ptrs = Some k -> call_addr r k lane = eval r ptrs lane).
Proof.
  intro H.
  specialize (H 4%nat (fun _ => (true, 32)) (leaves 4096 1) 0%nat false false far_apart).
  eapply refute; [|eapply H; [lia| |reflexivity| |vm_compute; reflexivity|vm_compute; reflexivity]];
    [vm_compute; reflexivity| |].
  - cbn; repeat split; try lia; repeat constructor; unfold in_u; cbn; lia.
  - cbn; intuition (try discriminate; try lia); repeat constructor; lia.
Qed.

(** 32-bit addressing.  An unsigned index of 2^31 becomes negative ... *)
Definition unsigned_index : exp := Bin Add false 64 base_vec (Cast ZExt 64 index32).

Theorem C37_unsigned_32_refuted :
  ~ (forall n T r lane native wrap ptrs k,
       (lane < n)%nat -> well n T true ptrs -> width ptrs = 64 -> every (tame n) false ptrs ->
       room r lane Mod ptrs ->
       to_base_offsets n 64 native true wrap ptrs = Some k -> call_addr r k lane = eval r ptrs lane).
Proof.
  intro H.
  specialize (H 4%nat (fun _ => (true, 32)) (leaves 4096 (2 ^ 31)) 0%nat false false unsigned_index).
  eapply refute; [|eapply H; [lia| |reflexivity| | |vm_compute; reflexivity]];
    [vm_compute; reflexivity| | |].
  - cbn. repeat split; try lia; repeat constructor; lia.
  - cbn; intuition discriminate.
  - cbn [room unsigned_index base_vec smear is_add index32 whole]; repeat split;
      try discriminate; try exact Logic.I; vm_compute; reflexivity.
Qed.

(** ... as does the sum of two indices that were widened before they were
    added (native gathers) ... *)
Definition wide_sum : exp :=
  Bin Add false 64 base_vec (Bin Add true 64 (Cast SExt 64 index32) (Cast SExt 64 index32)).

Theorem C37_sum_32_refuted :
  ~ (forall n T r lane wrap ptrs k,
       (lane < n)%nat -> well n T true ptrs -> width ptrs = 64 -> every (tame n) false ptrs ->
       overflows r ptrs lane = false ->
       to_base_offsets n 64 true true wrap ptrs = Some k -> call_addr r k lane = eval r ptrs lane).
Proof.
  intro H.
  specialize (H 4%nat (fun _ => (true, 32)) (leaves 4096 (2 ^ 30)) 0%nat false wide_sum).
  eapply refute; [|eapply H; [lia| |reflexivity| |vm_compute; reflexivity|vm_compute; reflexivity]];
    [vm_compute; reflexivity| |].
  - cbn; repeat split; try lia; repeat constructor; lia.
  - cbn; intuition discriminate.
Qed.

(** ... and a constant offset of 2^32 is dropped. *)
Definition big_constant : exp :=
  Bin Add false 64 base_vec (Bin Add true 64 (Cast SExt 64 index32) (Data 64 (four (2 ^ 32)))).

Theorem C37_constant_32_refuted :
  ~ (forall n T r lane wrap ptrs k,
       (lane < n)%nat -> well n T true ptrs -> width ptrs = 64 ->
       overflows r ptrs lane = false ->
       to_base_offsets n 64 false true wrap ptrs = Some k -> call_addr r k lane = eval r ptrs lane).
Proof.
  intro H.
  specialize (H 4%nat (fun _ => (true, 32)) (leaves 4096 1) 0%nat false big_constant).
  eapply refute; [|eapply H; [lia| |reflexivity|vm_compute; reflexivity|vm_compute; reflexivity]];
    [vm_compute; reflexivity|].
  cbn; repeat split; try lia; repeat constructor; unfold in_u; cbn; lia.
Qed.

(** ** C59: gathers and scatters that become loads and stores *)

Section C59.

Variables (n : nat) (T : nat -> bool * Z) (P : prog) (tr : nat -> env) (t f : nat)
  (factored gather on : bool) (step w : Z) (k : call).

(** No loop-carried vectors; the offsets are as C58 and [proper] ask for. *)
Definition convertible : Prop :=
  let off := full_offsets n factored k in
  (0 < n)%nat /\ 0 < Z.abs step < 128 /\ well_prog n T P /\ run P tr /\ no_phis P off /\
  sane n P tr off /\ smooth n P tr off /\ defined (tr t) off /\ proper n T (tr t) k factored w.

(** A gather replaced by one load finds, in the lanes that are on, what the
    gather finds; if a lane is on, the load touches no other memory. *)
Theorem C59_scalar_load_partial (off : exp) (mem : Z -> option Z) (mask : nat -> bool) :
  convertible -> to_load_store n P f factored gather on step k = ScalarLoad off ->
  found n mem mask (one_addr (tr t) k off) = found n mem mask (call_addr (tr t) k) /\
  ((exists i, (i < n)%nat /\ mask i = true) ->
   forall i, In (one_addr (tr t) k off i) (touched n mask (call_addr (tr t) k))).
Proof.
  intros (Hn & Hs & HP & Hr & Np & Sn & Sm & D & K) E.
  assert (A : forall i, (i < n)%nat -> call_addr (tr t) k i = one_addr (tr t) k off i).
  { intros i Hi. exact (scalar_load_addr n T P tr t f factored gather on step w k Hn HP Hr Np Sn D K off i E Hi). }
  split; [apply found_ext; intros i Hi _; symmetry; apply A, Hi|].
  intros (i & Hi & M) j. change (one_addr (tr t) k off j) with (one_addr (tr t) k off i).
  rewrite <- (A i Hi). apply in_map, filter_In. split; [apply in_seq; lia|exact M].
Qed.

(** A gather or scatter replaced by a masked load or store of consecutive
    elements finds and stores the same and touches the same memory. *)
Theorem C59_vector_partial (off : exp) (mem : Z -> option Z) (mask : nat -> bool) (val : nat -> Z) :
  convertible -> to_load_store n P f factored gather on step k = Vector off ->
  found n mem mask (vector_addr (tr t) k off step) = found n mem mask (call_addr (tr t) k) /\
  touched n mask (vector_addr (tr t) k off step) = touched n mask (call_addr (tr t) k) /\
  stored n mem mask (vector_addr (tr t) k off step) val = stored n mem mask (call_addr (tr t) k) val.
Proof.
  intros (Hn & Hs & HP & Hr & Np & Sn & Sm & D & K) E.
  assert (A : forall i, (i < n)%nat -> mask i = true -> vector_addr (tr t) k off step i = call_addr (tr t) k i).
  { intros i Hi _. symmetry.
    exact (vector_load_addr n T P tr t f factored gather on step w k Hn HP Hr Np Sn D K Sm Hs off i E Hi). }
  split; [|split]; [apply found_ext|apply touched_ext|apply stored_ext]; exact A.
Qed.

(** The same for elements in reverse order; all lanes are on. *)
Theorem C59_reversed_partial (off : exp) (mem : Z -> option Z) (val : nat -> Z) :
  convertible -> to_load_store n P f factored gather on step k = Reversed off ->
  on = true /\
  let all := fun _ : nat => true in
  found n mem all (reversed_addr n (tr t) k off step) = found n mem all (call_addr (tr t) k) /\
  touched n all (reversed_addr n (tr t) k off step) = touched n all (call_addr (tr t) k) /\
  stored n mem all (reversed_addr n (tr t) k off step) val = stored n mem all (call_addr (tr t) k) val.
Proof.
  intros (Hn & Hs & HP & Hr & Np & Sn & Sm & D & K) E.
  split; [pose proof (load_store_cases n P f factored gather on step k) as C; rewrite E in C; apply C|].
  intro all.
  assert (A : forall i, (i < n)%nat -> all i = true -> reversed_addr n (tr t) k off step i = call_addr (tr t) k i).
  { intros i Hi _. symmetry.
    exact (reversed_load_addr n T P tr t f factored gather on step w k Hn HP Hr Np Sn D K Sm Hs off i E Hi). }
  split; [|split]; [apply found_ext|apply touched_ext|apply stored_ext]; exact A.
Qed.

End C59.

(** a[programIndex + u], elements of four bytes, 64-bit offsets. *)
Definition row : call :=
  mkCall (Leaf false KPtrToInt 64 1)
         (Bin Add true 64 (Data 64 [0; 1; 2; 3]) (smear 64 (Leaf false KOther 64 2))) 4 (Zero 64).

Example C59_case : forall b u,
  let tr := fun _ : nat => leaves b u in
  convertible 4 (fun _ => (true, 32)) no_prog tr 0 true 4 64 row /\
  to_load_store 4 no_prog 9 true true false 4 row = Vector (full_offsets 4 true row) /\
  convertible 4 (fun _ => (true, 32)) no_prog tr 0 true (-4) 64 row /\
  to_load_store 4 no_prog 9 true true true (-4) row = Reversed (full_offsets 4 true row).
Proof.
  intros b u tr.
  assert (C : forall s, 0 < Z.abs s < 128 -> convertible 4 (fun _ => (true, 32)) no_prog tr 0 true s 64 row).
  { intros s Hs. split; [lia|]. split; [exact Hs|]. split; [intros p i []|].
    split; [split; [intros [|p]; reflexivity|intros t p; left; reflexivity]|].
    split; [split; [cbn; tauto|intros p i []]|].
    split; [intro t; split; [|intros p i []]; cbn; intuition (try discriminate; try lia); repeat constructor; lia|].
    split; [intro t; split; [|intros p i []]; cbn; tauto|]. split; [cbn; tauto|].
    constructor; cbn; try lia; try discriminate; auto; repeat split; try lia;
      repeat constructor; unfold in_u; cbn; lia. }
  split; [apply C; lia|]. split; [vm_compute; reflexivity|].
  split; [apply C; lia|]. vm_compute; reflexivity.
Qed.

(** *** Where the conversion is wrong *)

(** The single load is done even if no lane is on: it can touch memory the
    program never touches. *)
Definition uniform_row : call :=
  mkCall (Leaf false KPtrToInt 64 1) (smear 64 (Leaf false KOther 64 2)) 4 (Zero 64).

Theorem C59_scalar_load_off_refuted :
  ~ (forall n T P tr t f factored gather on step w k off mask,
       convertible n T P tr t factored step w k ->
       to_load_store n P f factored gather on step k = ScalarLoad off ->
       forall i, In (one_addr (tr t) k off i) (touched n mask (call_addr (tr t) k))).
Proof.
  intro H.
  specialize (H 4%nat (fun _ => (true, 32)) no_prog (fun _ => leaves 0 7) 0%nat 9%nat true true false 4 64 uniform_row
                (full_offsets 4 true uniform_row) (fun _ => false)).
  assert (C : convertible 4 (fun _ => (true, 32)) no_prog (fun _ => leaves 0 7) 0 true 4 64 uniform_row).
  { split; [lia|]. split; [lia|]. split; [intros p i []|].
    split; [split; [intros [|p]; reflexivity|intros t p; left; reflexivity]|].
    split; [split; [cbn; tauto|intros p i []]|].
    split; [intro t; split; [|intros p i []]; cbn; intuition (try discriminate; try lia); repeat constructor; lia|].
    split; [intro t; split; [|intros p i []]; cbn; tauto|]. split; [cbn; tauto|].
    constructor; cbn; try lia; try discriminate; auto; repeat split; try lia; repeat constructor; lia. }
  exact (H C ltac:(vm_compute; reflexivity) 0%nat).
Qed.

(** 32-bit offsets: the load multiplies in 32 bits, the gather in 64. *)
Definition far_row : call :=
  mkCall (Leaf false KPtrToInt 64 1) (smear 32 (Leaf false KOther 32 2)) 8 (Zero 32).

Theorem C59_offset_32_refuted :
  ~ (forall n T r f factored gather on step k off i,
       (i < n)%nat -> well n T false (c_base k) -> well n T true (c_var k) -> well n T true (c_const k) ->
       to_load_store n no_prog f factored gather on step k = ScalarLoad off ->
       one_addr r k off i = call_addr r k i).
Proof.
  intro H.
  specialize (H 4%nat (fun _ => (true, 32)) (leaves (2 ^ 40) (2 ^ 28)) 9%nat true true false 8 far_row
                (full_offsets 4 true far_row) 0%nat).
  assert (X : one_addr (leaves (2 ^ 40) (2 ^ 28)) far_row (full_offsets 4 true far_row) 0 =
              call_addr (leaves (2 ^ 40) (2 ^ 28)) far_row 0).
  { apply H; [lia|cbn; lia|cbn; repeat split; try lia; repeat constructor; lia|cbn; lia|vm_compute; reflexivity]. }
  vm_compute in X. discriminate X.
Qed.

Print Assumptions C58_all_equal_partial.
Print Assumptions C58_all_equal_loops_partial.
Print Assumptions C58_linear_partial.
Print Assumptions C58_linear_loops_partial.
Print Assumptions C37_same_address_partial.
Print Assumptions C37_same_address_32_partial.
Print Assumptions C37_more_const_partial.
Print Assumptions C37_no_new_poison_partial.
Print Assumptions C59_scalar_load_partial.
Print Assumptions C59_vector_partial.
Print Assumptions C59_reversed_partial.
