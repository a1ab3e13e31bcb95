(** Gather coalescing (C35): src/opt/GatherCoalescePass.cpp.

    The model covers the choice of the loads, the loads themselves, putting the
    vectors together, and which gathers of a basic block are put in a group.
    32-bit elements only: the pass looks at the i32 and float gathers
    (917-922).  Not modelled: performance messages, debugging output, metadata,
    and the bitcast of the result to a vector of floats. *)

From Coq Require Import ZArith List Bool Lia.
From Verif Require Import Bits.
Import ListNotations.
Open Scope Z_scope.

(** Memory at run time: bytes, at 64-bit addresses. *)
Definition memory := Z -> Z.

Definition byte (mem : memory) (a : Z) : Z := wrapu 8 (mem (wrapu 64 a)).

(** A little-endian 32-bit load. *)
Definition word (mem : memory) (a : Z) : Z :=
  byte mem a + 2 ^ 8 * byte mem (a + 1) + 2 ^ 16 * byte mem (a + 2) + 2 ^ 24 * byte mem (a + 3).

(** struct CoalescedLoadOp, GatherCoalescePass.cpp:15-37.  [load]: the loaded
    value, with its elements (one for the scalar loads). *)
Record op := { start : Z; count : Z; load : list Z; element0 : Z; element1 : Z }.

Definition new_op (s c : Z) : op := {| start := s; count := c; load := []; element0 := 0; element1 := 0 |}.

(** lVectorLoadIsEfficient, 45-129.  The iterators are the rest of the sorted
    set; the result is [*newIter].  int64_t arithmetic: the offsets are quotients
    by the size of an element, so nothing overflows. *)
Fixpoint efficient_loop (vectorWidth first lastAccepted : Z) (iter : list Z) : option (list Z) :=
  match iter with
  | [] => None
  | x :: next =>
    let delta := x - lastAccepted in
    if delta >? 3 then None
    else
      let span := x - first + 1 in
      if span =? vectorWidth then Some next
      else if span >? vectorWidth then
        if negb (vectorWidth =? 2) && (lastAccepted - first >? vectorWidth / 2) && (x - lastAccepted <? 4096)
        then Some iter else None
      else efficient_loop vectorWidth first x next
  end.

Definition efficient (iter : list Z) (vectorWidth : Z) : option (list Z) :=
  match iter with
  | [] => None
  | x :: _ => efficient_loop vectorWidth x x iter
  end.

(** std::set<int64_t>::insert, 139-142. *)
Fixpoint set_insert (x : Z) (l : list Z) : list Z :=
  match l with
  | [] => [x]
  | y :: r => if x <? y then x :: l else if x =? y then l else y :: set_insert x r
  end.

Definition set_of (l : list Z) : list Z := fold_left (fun s x => set_insert x s) l [].

(** The loop over vectorWidths, 157-177. *)
Fixpoint try_widths (iter : list Z) (widths : list Z) : option (Z * list Z) :=
  match widths with
  | [] => None
  | w :: r => match efficient iter w with
              | Some newIter => Some (w, newIter)
              | None => try_widths iter r
              end
  end.

(** lSelectLoads, 137-186.  The loop ends after at most as many steps as there
    are offsets; [None] if the fuel is used up. *)
Fixpoint select_loop (fuel : nat) (iter : list Z) : option (list op) :=
  match iter with
  | [] => Some []
  | x :: next =>
    match fuel with
    | O => None
    | Datatypes.S fuel =>
      let (w, newIter) := match try_widths iter [8; 4; 2] with
                          | Some r => r
                          | None => (1, next)
                          end in
      match select_loop fuel newIter with
      | Some ops => Some (new_op x w :: ops)
      | None => None
      end
    end
  end.

Definition select_loads (loadOffsets : list Z) : option (list op) :=
  let allOffsets := set_of loadOffsets in
  select_loop (length allOffsets) allOffsets.

(** [n] consecutive 32-bit values. *)
Definition words (mem : memory) (p : Z) (n : nat) : list Z :=
  map (fun i => word mem (p + 4 * Z.of_nat i)) (seq 0 n).

(** lEmitLoads, 279-328, with lGEPAndLoad, 265-273.  [None]: FATAL. *)
Definition emit_load (mem : memory) (basePtr : Z) (elementSize : Z) (o : op) : option op :=
  let p := basePtr + start o * elementSize in
  if count o =? 1 then
    Some {| start := start o; count := 1; load := words mem p 1; element0 := 0; element1 := 0 |}
  else if count o =? 2 then
    let v := word mem p + 2 ^ 32 * word mem (p + 4) in
    Some {| start := start o; count := 2; load := [v];
            element0 := wrapu 32 v; element1 := wrapu 32 (Z.shiftr v 32) |}
  else if count o =? 4 then
    Some {| start := start o; count := 4; load := words mem p 4; element0 := 0; element1 := 0 |}
  else if count o =? 8 then
    Some {| start := start o; count := 8; load := words mem p 8; element0 := 0; element1 := 0 |}
  else None.

Fixpoint map_opt {A B} (f : A -> option B) (l : list A) : option (list B) :=
  match l with
  | [] => Some []
  | x :: r => match f x, map_opt f r with
              | Some y, Some ys => Some (y :: ys)
              | _, _ => None
              end
  end.

Definition emit_loads (mem : memory) (basePtr elementSize : Z) (ops : list op) : option (list op) :=
  map_opt (emit_load mem basePtr elementSize) ops.

(** Vectors whose elements may be poison ([None]); shufflevector on two of
    them of the same length, llvmutil.cpp:1699-1714. *)
Definition vec := list (option Z).

Definition shuffle (a b : vec) (idx : list nat) : vec :=
  map (fun i => nth i (a ++ b) None) idx.

(** lSplit8WideLoads, 335-356. *)
Definition split8 (ops : list op) : list op :=
  flat_map (fun o =>
    if count o =? 8 then
      let part idx := map (fun i => nth i (load o ++ load o) 0) idx in
      [{| start := start o; count := 4; load := part [0; 1; 2; 3]%nat; element0 := 0; element1 := 0 |};
       {| start := start o + 4; count := 4; load := part [4; 5; 6; 7]%nat; element0 := 0; element1 := 0 |}]
    else [o]) ops.

(** The result so far and the array set[4]. *)
Definition state := (vec * list bool)%type.

Fixpoint update {A} (l : list A) (i : nat) (x : A) : list A :=
  match l, i with
  | [], _ => []
  | _ :: r, O => x :: r
  | y :: r, Datatypes.S i => y :: update r i x
  end.

Definition covers (o : op) (off : Z) : bool := (start o <=? off) && (off <? start o + count o).

(** Assert(set[elt] == false), then an insertelement. *)
Definition insert (s : state) (elt : nat) (v : option Z) : option state :=
  if nth elt (snd s) false then None
  else Some (update (fst s) elt v, update (snd s) elt true).

(** lApplyLoad1, 361-380. *)
Fixpoint apply1_loop (o : op) (offsets : list Z) (elts : list nat) (s : state) : option state :=
  match elts with
  | [] => Some s
  | elt :: r =>
    if covers o (nth elt offsets 0) then
      match insert s elt (Some (nth 0 (load o) 0)) with
      | Some s' => apply1_loop o offsets r s'
      | None => None
      end
    else apply1_loop o offsets r s
  end.

Definition apply1 (o : op) (offsets : list Z) (s : state) : option state :=
  apply1_loop o offsets [0; 1; 2; 3]%nat s.

(** <4 x i32> to <2 x i64> and back, 401-416.  An i64 is given by its halves.
    In LLVM an i64 made of a poison element is poison as a whole ([strict]);
    machine code keeps the other half. *)
Definition pair64 (strict : bool) (a b : option Z) : option Z * option Z :=
  if strict then match a, b with Some _, Some _ => (a, b) | _, _ => (None, None) end else (a, b).

Definition to2x64 (strict : bool) (v : vec) : list (option Z * option Z) :=
  [pair64 strict (nth 0 v None) (nth 1 v None); pair64 strict (nth 2 v None) (nth 3 v None)].

Definition halves (v : Z) : option Z * option Z := (Some (wrapu 32 v), Some (wrapu 32 (Z.shiftr v 32))).

Definition to4x32 (v : list (option Z * option Z)) : vec := flat_map (fun p => [fst p; snd p]) v.

(** lApplyLoad2, 384-436; [fuel] bounds the four steps of the while loop. *)
Fixpoint apply2_loop (strict : bool) (fuel : nat) (o : op) (offsets : list Z) (elt : nat) (s : state) : option state :=
  match fuel with
  | O => Some s
  | Datatypes.S fuel =>
    if Nat.ltb elt 4 then
      if Nat.even elt && (nth elt offsets 0 + 1 =? nth (elt + 1) offsets 0) && (nth elt offsets 0 =? start o) then
        if negb (nth elt (snd s) false) && (Nat.ltb elt 3 && negb (nth (elt + 1) (snd s) false)) then
          let result := to4x32 (update (to2x64 strict (fst s)) (Nat.div elt 2) (halves (nth 0 (load o) 0))) in
          apply2_loop strict fuel o offsets (elt + 2) (result, update (update (snd s) elt true) (elt + 1) true)
        else None
      else if covers o (nth elt offsets 0) then
        match insert s elt (Some (if nth elt offsets 0 =? start o then element0 o else element1 o)) with
        | Some s' => apply2_loop strict fuel o offsets (elt + 1) s'
        | None => None
        end
      else apply2_loop strict fuel o offsets (elt + 1) s
    else Some s
  end.

Definition apply2 (strict : bool) (o : op) (offsets : list Z) (s : state) : option state :=
  apply2_loop strict 4 o offsets 0 s.

(** lApplyLoad4, 444-479. *)
Fixpoint apply4_loop (o : op) (offsets : list Z) (elts : list nat) (shuf : list nat) (set : list bool)
  : option (list nat * list bool) :=
  match elts with
  | [] => Some (shuf, set)
  | elt :: r =>
    if covers o (nth elt offsets 0) then
      if nth elt set false then None
      else apply4_loop o offsets r (update shuf elt (Z.to_nat (nth elt offsets 0 - start o))) (update set elt true)
    else apply4_loop o offsets r shuf set
  end.

Definition apply4 (o : op) (offsets : list Z) (s : state) : option state :=
  match apply4_loop o offsets [0; 1; 2; 3]%nat [4; 5; 6; 7]%nat (snd s) with
  | None => None
  | Some (shuf, set) =>
    if forallb (fun p => Nat.eqb (fst p) (snd p)) (combine shuf [4; 5; 6; 7]%nat) then Some (fst s, set)
    else Some (shuffle (map Some (load o)) (fst s) shuf, set)
  end.

(** lAssemble4Vector, 487-531. *)
Fixpoint assemble_loop (strict : bool) (ops : list op) (offsets : list Z) (s : state) : option state :=
  match ops with
  | [] => Some s
  | o :: r =>
    match (if count o =? 1 then apply1 o offsets s
           else if count o =? 2 then apply2 strict o offsets s
           else if count o =? 4 then apply4 o offsets s
           else None) with
    | Some s' => assemble_loop strict r offsets s'
    | None => None
    end
  end.

Definition assemble4 (strict : bool) (ops : list op) (offsets : list Z) : option vec :=
  match assemble_loop strict ops offsets ([None; None; None; None], [false; false; false; false]) with
  | Some (result, set) => if forallb (fun b => b) set then Some result else None
  | None => None
  end.

(** LLVMConcatVectors, llvmutil.cpp:1680-1693. *)
Definition concat2 (a b : vec) : vec := shuffle a b (seq 0 (2 * length a)).

(** The offsets four by four, GatherCoalescePass.cpp:652-655; [None] if their
    number is not a multiple of four (Assert, 650). *)
Fixpoint chunks4 (l : list Z) : option (list (list Z)) :=
  match l with
  | [] => Some []
  | a :: b :: c :: d :: r => match chunks4 r with Some x => Some ([a; b; c; d] :: x) | None => None end
  | _ => None
  end.

(** lAssembleResultVectors, 644-711: the result for gather [i].  [None]: FATAL.
    An index past the end of vec4s reads an empty vector here. *)
Definition result_vec (vectorWidth : nat) (vec4s : list vec) (i : nat) : option vec :=
  let v k := nth k vec4s [] in
  match vectorWidth with
  | 4 => Some (v i)
  | 8 => Some (concat2 (v (2 * i)) (v (2 * i + 1)))
  | 16 =>
    let v1 := concat2 (v (4 * i)) (v (4 * i + 1)) in
    let v2 := concat2 (v (4 * i + 2)) (v (4 * i + 3)) in
    Some (concat2 v1 v2)
  | 32 =>
    let v1 := concat2 (v (4 * i)) (v (4 * i + 1)) in
    let v2 := concat2 (v (4 * i + 2)) (v (4 * i + 3)) in
    let v3 := concat2 (v (4 * i + 4)) (v (4 * i + 5)) in
    let v4 := concat2 (v (4 * i + 6)) (v (4 * i + 7)) in
    Some (concat2 (concat2 v1 v2) (concat2 v3 v4))
  | 64 =>
    let v1 := concat2 (v (4 * i)) (v (4 * i + 1)) in
    let v2 := concat2 (v (4 * i + 2)) (v (4 * i + 3)) in
    let v3 := concat2 (v (4 * i + 4)) (v (4 * i + 5)) in
    let v4 := concat2 (v (4 * i + 6)) (v (4 * i + 7)) in
    let v5 := concat2 (v (4 * i + 8)) (v (4 * i + 9)) in
    let v6 := concat2 (v (4 * i + 10)) (v (4 * i + 11)) in
    let v7 := concat2 (v (4 * i + 12)) (v (4 * i + 13)) in
    let v8 := concat2 (v (4 * i + 14)) (v (4 * i + 15)) in
    Some (concat2 (concat2 (concat2 v1 v2) (concat2 v3 v4)) (concat2 (concat2 v5 v6) (concat2 v7 v8)))
  | _ => None
  end%nat.

Definition assemble_results (strict : bool) (vectorWidth : nat) (ops : list op) (constOffsets : list Z) : option (list vec) :=
  match chunks4 constOffsets with
  | None => None
  | Some c =>
    match map_opt (assemble4 strict ops) c with
    | None => None
    | Some vec4s =>
      map_opt (result_vec vectorWidth vec4s) (seq 0 (Nat.div (length constOffsets) vectorWidth))
    end
  end.

(** ** Groups *)

(** A call to a factored gather; [func] is the callee: its index in gatherFuncs
    (885-890), others are not looked at.  The operands are values of the block,
    named by numbers; the constant offsets are a vector of 32-bit or 64-bit
    integers, given by their bits. *)
Record gather := { func : nat; base : nat; variable : nat; scale : nat; mask : nat; consts : list Z }.

Definition is64 (g : gather) : bool := Nat.leb 2 (func g).

(** Values at run time: the base pointer, the scale, the variable offset of the
    first lane (all by their bits). *)
Definition env := nat -> Z.

Definition width (g : gather) : Z := if is64 g then 64 else 32.

(** lComputeBasePtr, 719-737: the multiplication has the width of the offsets,
    and getelementptr sign-extends. *)
Definition compute_base (e : env) (g : gather) : Z :=
  let offset := wrapu (width g) (e (variable g) * e (scale g)) in
  e (base g) + wraps (width g) offset.

(** LLVMExtractVectorInts, llvmutil.cpp:776-800: getElementAsInteger gives the
    bits of the element as an unsigned number; they are stored in an int64_t. *)
Definition extract_int (c : Z) : Z := wraps 64 c.

(** lExtractConstOffsets, GatherCoalescePass.cpp:746-762. *)
Definition extract_consts (elementSize : Z) (group : list gather) : list Z :=
  map (fun c => Z.quot (extract_int c) elementSize) (flat_map consts group).

(** lCoalesceGathers, 774-847: the results of the gathers of the group. *)
Definition coalesce (strict : bool) (vectorWidth : nat) (e : env) (mem : memory) (group : list gather) : option (list vec) :=
  match group with
  | [] => None
  | first :: _ =>
    let basePtr := compute_base e first in
    let constOffsets := extract_consts 4 group in
    if forallb (fun g => Nat.eqb (length (consts g)) vectorWidth) group then
      match select_loads constOffsets with
      | None => None
      | Some ops =>
        match emit_loads mem basePtr 4 ops with
        | None => None
        | Some ops => assemble_results strict vectorWidth (split8 ops) constOffsets
        end
      end
    else None
  end.

(** The bytes read by the loads, [align] being what each load assumes of its
    address: 4, or the native vector alignment for the wide loads with
    --opt=force-aligned-memory, 290-322. *)
Definition load_reads (basePtr : Z) (o : op) : list Z :=
  map (fun i => basePtr + start o * 4 + Z.of_nat i) (seq 0 (Z.to_nat (4 * count o))).

Definition load_align (forceAligned : bool) (native : Z) (o : op) : Z :=
  if forceAligned && ((count o =? 4) || (count o =? 8)) then native else 4.

Definition group_loads (group : list gather) : option (list op) := select_loads (extract_consts 4 group).

(** ** Basic blocks *)

(** Instructions: gathers; those that may write to memory, with what they do;
    fences and calls of functions that are said not to access memory
    (__memory_barrier is, builtins/util.m4:6099), with what other threads did
    to the memory this one sees afterwards; all others. *)
Inductive inst :=
| Gather (g : gather)
| Write (f : memory -> memory)
| Fence (f : memory -> memory)
| Other.

(** lInstructionMayWriteToMemory, 854-879. *)
Definition may_write (i : inst) : bool := match i with Write _ => true | _ => false end.

(** 1003-1004: same callee and operands. *)
Definition same_call (a b : gather) : bool :=
  Nat.eqb (func a) (func b) && Nat.eqb (base a) (base b) && Nat.eqb (variable a) (variable b) &&
  Nat.eqb (scale a) (scale b) && Nat.eqb (mask a) (mask b).

(** Where each instruction's value comes from: itself, or the [snd] result of
    the group that starts at instruction [fst]. *)
Definition plan := nat -> option (nat * nat).

Definition taken (p : plan) (pos : nat) : bool := match p pos with Some _ => true | None => false end.

(** The forward loop, 966-1026: positions of the other gathers of the group;
    [room] more of them may be added. *)
Fixpoint scan (p : plan) (first : gather) (room : nat) (rest : list inst) (pos : nat) : list nat :=
  match rest with
  | [] => []
  | i :: r =>
    if may_write i then []
    else match i with
         | Gather g =>
           if negb (taken p pos) && same_call first g then
             match room with
             | O => []
             | Datatypes.S O => [pos]
             | Datatypes.S room => pos :: scan p first room r (Datatypes.S pos)
             end
           else scan p first room r (Datatypes.S pos)
         | _ => scan p first room r (Datatypes.S pos)
         end
  end.

Fixpoint assign (p : plan) (first : nat) (k : nat) (members : list nat) : plan :=
  match members with
  | [] => p
  | x :: r => assign (fun q => if Nat.eqb q x then Some (first, k) else p q) first (Datatypes.S k) r
  end.

(** GatherCoalescePass::coalesceGathersFactored, 881-1035.  [all_on] and
    [uniform] stand for GetMaskStatusFromValue and LLVMVectorValuesAllEqual. *)
Fixpoint pass_loop (all_on uniform : nat -> bool) (p : plan) (rest : list inst) (pos : nat) : plan :=
  match rest with
  | [] => p
  | Gather g :: r =>
    if negb (taken p pos) && Nat.ltb (func g) 4 && all_on (mask g) && uniform (variable g) then
      let members := pos :: scan p g 3 r (Datatypes.S pos) in
      pass_loop all_on uniform (assign p pos 0 members) r (Datatypes.S pos)
    else pass_loop all_on uniform p r (Datatypes.S pos)
  | _ :: r => pass_loop all_on uniform p r (Datatypes.S pos)
  end.

Definition coalesce_pass (all_on uniform : nat -> bool) (block : list inst) : plan :=
  pass_loop all_on uniform (fun _ => None) block 0.

(** The gathers of the group that starts at [first]. *)
Definition group_of (p : plan) (first : nat) (block : list inst) : list gather :=
  flat_map (fun q => match p q, nth q block Other with
                     | Some (f, _), Gather g => if Nat.eqb f first then [g] else []
                     | _, _ => []
                     end) (seq 0 (length block)).
