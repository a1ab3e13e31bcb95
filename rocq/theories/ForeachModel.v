(** The iteration constructs: foreach / foreach_tiled, foreach_active, foreach_unique and calls
    through varying function pointers, as the control flow graphs src/stmt.cpp and src/ctx.cpp emit.

    The loop body is user code; what these constructs decide is which body executions happen, in
    which order, with which mask and which values of the loop variables.  A machine below therefore
    appends one event per execution of the body.  The body cannot influence the machine: bounds and
    the foreach_unique value vector are evaluated once before the loop, the loop variables are
    const, and [continue] only ends the current execution (RestoreContinuedLanes restores the mask
    at the join).  The emission of the body under a mask is the subject of SpmdModel.

    [None] is an LLVM poison value: the result of an [nsw] addition or subtraction that overflows.
    Branching on poison, or running the body under a mask with a poison lane, is undefined. *)
From Coq Require Import ZArith List Bool SpecFloat.
From Verif Require Import Bits LanesModel.
Import ListNotations.
Local Open Scope Z_scope.

(** ** Spans *)

(* src/stmt.cpp:1524-1533 lLog2 (for i >= 0; -1 for 0) *)
Fixpoint log2_loop (fuel : nat) (i ret : Z) : Z :=
  match fuel with
  | O => ret
  | S f => if i =? 0 then ret else log2_loop f (Z.shiftr i 1) (ret + 1)
  end.
Definition log2 (i : Z) : Z := log2_loop 64 i 0 - 1.

(* src/stmt.cpp:1544-1567 lGetSpans: spans of the dimensions, outermost first. *)
Fixpoint get_spans (dimsLeft : nat) (itemsLeft : Z) (isTiled : bool) : list Z :=
  match dimsLeft with
  | O => [itemsLeft]
  | S d =>
      let a := if negb isTiled || (log2 itemsLeft <=? Z.of_nat dimsLeft) then 1
               else if (16 <=? itemsLeft) && (Z.of_nat dimsLeft =? 1) then 4
               else 2 in
      a :: get_spans d (itemsLeft / a) isTiled
  end.

(* src/stmt.cpp:1477-1500 lCalculateDeltaForVaryingCounter: the offset of lane [l] in dimension
   [dim], given the spans of all dimensions. *)
Definition delta (spans : list Z) (dim : nat) (l : nat) : Z :=
  (Z.of_nat l / fold_right Z.mul 1 (skipn (S dim) spans)) mod nth dim spans 0.

(** ** 32-bit arithmetic without signed wrap *)

Definition in32 (x : Z) : bool := (- 2 ^ 31 <=? x) && (x <? 2 ^ 31).
Definition nsw (x : Z) : option Z := if in32 x then Some x else None.
Definition add_nsw (a b : option Z) : option Z :=
  match a, b with Some a, Some b => nsw (a + b) | _, _ => None end.
Definition sub_nsw (a b : option Z) : option Z :=
  match a, b with Some a, Some b => nsw (a - b) | _, _ => None end.
Definition srem (a b : option Z) : option Z :=
  match a, b with Some a, Some b => Some (Z.rem a b) | _, _ => None end.
Definition slt (a b : option Z) : option bool :=
  match a, b with Some a, Some b => Some (a <? b) | _, _ => None end.
Definition icmp_eq (a b : option Z) : option bool :=
  match a, b with Some a, Some b => Some (a =? b) | _, _ => None end.
Definition bor (a b : option bool) : option bool :=
  match a, b with Some a, Some b => Some (a || b) | _, _ => None end.
Definition band (a b : option bool) : option bool :=
  match a, b with Some a, Some b => Some (a && b) | _, _ => None end.

Definition vmap2 {A B C} (f : A -> B -> C) (xs : list A) (ys : list B) : list C :=
  map (fun p => f (fst p) (snd p)) (combine xs ys).

(* every lane, if no lane is poison *)
Fixpoint all_defined {A} (xs : list (option A)) : option (list A) :=
  match xs with
  | [] => Some []
  | Some x :: xs => match all_defined xs with Some r => Some (x :: r) | None => None end
  | None :: _ => None
  end.

(** ** foreach and foreach_tiled *)

(* One execution of the body: the mask, and for each lane the values of the dimension variables. *)
Record event := Event { ev_mask : list bool; ev_index : list (list (option Z)) }.

(* The basic blocks of ForeachStmt::EmitCode. *)
Inductive block :=
| Test (i : nat) | Reset (i : nat) | Step (i : nat)
| OuterInExtras | AllInnerPartialOuter | Partial
| OuterNotInExtras | FullBody | PartialInnerAllOuter | SetInnerMask
| MaskedBody | StepInnerIndex
| Exit | Undefined.

Record fstate := FState {
  pc : block;
  counter : nat -> option Z;            (* uniformCounterPtrs *)
  dimvar : nat -> list (option Z);      (* dimVariables' storage: one value per lane *)
  extras : nat -> list (option bool);   (* extrasMaskPtrs *)
  in_extras : nat -> option bool;       (* the values inExtras[i] *)
  imask : list (option bool);           (* internal mask *)
  step_index : bool;                    (* stepIndexAfterMaskedBodyPtrInfo *)
  trace : list event }.

Definition upd {A} (f : nat -> A) (i : nat) (x : A) : nat -> A :=
  fun j => if Nat.eqb j i then x else f j.

Section Foreach.
Context (W : nat) (spans starts ends : list Z).

Definition nDims : nat := length starts.
Definition last_dim : nat := pred nDims.

Definition span (i : nat) : option Z := Some (nth i spans 0).
Definition start (i : nat) : option Z := Some (nth i starts 0).
Definition end_ (i : nat) : option Z := Some (nth i ends 0).
(* src/stmt.cpp:1636-1650 *)
Definition nItems (i : nat) : option Z := sub_nsw (end_ i) (start i).
Definition nExtras (i : nat) : option Z := srem (nItems i) (span i).
Definition alignedEnd (i : nat) : option Z := sub_nsw (end_ i) (nExtras i).

Definition all_on : list (option bool) := repeat (Some true) W.

(* src/stmt.cpp:1506-1522 lUpdateVaryingCounter *)
Definition varying_counter (i : nat) (c : option Z) : list (option Z) :=
  map (fun l => add_nsw c (Some (delta spans i l))) (lanes W).

(* vector compare of the dimension variable with the smeared end value, e.g. src/stmt.cpp:1740-1745 *)
Definition emask (i : nat) (v : list (option Z)) : list (option bool) :=
  map (fun x => slt x (end_ i)) v.

Definition branch (c : option bool) (t f : block) : block :=
  match c with Some true => t | Some false => f | None => Undefined end.

Definition set_pc (b : block) (s : fstate) : fstate :=
  FState b (counter s) (dimvar s) (extras s) (in_extras s) (imask s) (step_index s) (trace s).
Definition set_counter (i : nat) (c : option Z) (s : fstate) : fstate :=
  FState (pc s) (upd (counter s) i c) (dimvar s) (extras s) (in_extras s) (imask s) (step_index s) (trace s).
Definition set_dimvar (i : nat) (v : list (option Z)) (s : fstate) : fstate :=
  FState (pc s) (counter s) (upd (dimvar s) i v) (extras s) (in_extras s) (imask s) (step_index s) (trace s).
Definition set_extras (i : nat) (m : list (option bool)) (s : fstate) : fstate :=
  FState (pc s) (counter s) (dimvar s) (upd (extras s) i m) (in_extras s) (imask s) (step_index s) (trace s).
Definition set_in_extras (i : nat) (b : option bool) (s : fstate) : fstate :=
  FState (pc s) (counter s) (dimvar s) (extras s) (upd (in_extras s) i b) (imask s) (step_index s) (trace s).
Definition set_imask (m : list (option bool)) (s : fstate) : fstate :=
  FState (pc s) (counter s) (dimvar s) (extras s) (in_extras s) m (step_index s) (trace s).
Definition set_step_index (b : bool) (s : fstate) : fstate :=
  FState (pc s) (counter s) (dimvar s) (extras s) (in_extras s) (imask s) b (trace s).

(* one execution of the body under the internal mask (the function mask is all on, 1595) *)
Definition run_body (next : block) (s : fstate) : fstate :=
  match all_defined (imask s) with
  | None => set_pc Undefined s
  | Some m =>
      let ix := map (fun l => map (fun i => nth l (dimvar s i) None) (seq 0 nDims)) (lanes W) in
      FState next (counter s) (dimvar s) (extras s) (in_extras s) (imask s) (step_index s)
             (trace s ++ [Event m ix])
  end.

(* src/stmt.cpp:1608-1672: setup, then a branch to the outermost test. *)
Definition init : fstate :=
  FState (Test 0) start (fun _ => repeat None W) (fun _ => all_on) (fun _ => None) all_on false [].

Definition fstep (s : fstate) : fstate :=
  let k := last_dim in
  match pc s with
  (* 1683-1693 foreach_reset *)
  | Reset i =>
      match i with
      | O => set_pc Exit s
      | S i' => set_pc (Step i') (set_counter i (start i) (set_extras i all_on s))
      end
  (* 1701-1709 foreach_step, all but the innermost dimension *)
  | Step i => set_pc (Test i) (set_counter i (add_nsw (counter s i) (span i)) s)
  | Test i =>
      if Nat.ltb i k then
        (* 1713-1758 foreach_test, all but the innermost dimension *)
        let c := counter s i in
        let inEx := band (slt (alignedEnd i) (end_ i)) (icmp_eq c (alignedEnd i)) in
        let inEx := match i with O => inEx | S i' => bor inEx (in_extras s i') end in
        let v := varying_counter i c in
        let em := emask i v in
        let em := match i with O => em | S i' => vmap2 band (extras s i') em end in
        set_pc (branch (slt c (end_ i)) (Test (S i)) (Reset i))
          (set_extras i em (set_dimvar i v (set_in_extras i inEx s)))
      else
        (* 1787-1796 foreach_test, innermost dimension *)
        match i with
        | O => set_pc OuterNotInExtras s
        | S i' => set_pc (branch (in_extras s i') OuterInExtras OuterNotInExtras) s
        end
  (* 1811-1825 *)
  | OuterInExtras =>
      set_pc (branch (slt (counter s k) (alignedEnd k)) AllInnerPartialOuter Partial)
        (set_dimvar k (varying_counter k (counter s k)) s)
  (* 1849-1863 *)
  | AllInnerPartialOuter =>
      let m := if Nat.eqb nDims 1 then repeat (Some false) W else extras s (pred k) in
      set_pc MaskedBody (set_step_index true (set_imask m s))
  (* 1868-1893 *)
  | Partial =>
      let em := emask k (dimvar s k) in
      let m := if Nat.eqb nDims 1 then em else vmap2 band (extras s (pred k)) em in
      set_pc (branch (option_map negb (icmp_eq (counter s k) (end_ k))) MaskedBody (Reset k))
        (set_step_index false (set_imask m s))
  (* 1906-1914 *)
  | OuterNotInExtras =>
      set_pc (branch (slt (counter s k) (alignedEnd k)) FullBody PartialInnerAllOuter) s
  (* 1923-1943 full body and its continuation *)
  | FullBody =>
      let s := run_body OuterNotInExtras
                 (set_dimvar k (varying_counter k (counter s k)) (set_imask all_on s)) in
      set_counter k (add_nsw (counter s k) (span k)) s
  (* 1951-1956 *)
  | PartialInnerAllOuter =>
      set_pc (branch (slt (counter s k) (end_ k)) SetInnerMask (Reset k)) s
  (* 1961-1974 *)
  | SetInnerMask =>
      let v := varying_counter k (counter s k) in
      set_pc MaskedBody (set_step_index false (set_imask (emask k v) (set_dimvar k v s)))
  (* 1985-1999 masked body and its continuation *)
  | MaskedBody => run_body (if step_index s then StepInnerIndex else Reset k) s
  (* 2004-2011 *)
  | StepInnerIndex => set_pc OuterInExtras (set_counter k (add_nsw (counter s k) (span k)) s)
  | Exit | Undefined => s
  end.

End Foreach.

(* Running a loop for [fuel] basic blocks.  The observable result: the body executions of a loop
   that has finished, [None] if undefined behaviour was reached. *)
Definition finished (s : fstate) : bool :=
  match pc s with Exit | Undefined => true | _ => false end.
Definition foreach_run (W : nat) (tiled : bool) (starts ends : list Z) (fuel : nat) : fstate :=
  let spans := get_spans (pred (length starts)) (Z.of_nat W) tiled in
  Nat.iter fuel (fstep W spans starts ends) (init W starts).

(** ** foreach_active *)

(* src/stmt.cpp:2363-2511.  [full] is the full mask on entry.  An event is the value of the loop
   variable and the full mask while the body runs: the internal mask is set to the one lane, the
   function mask [fm] is unchanged.  [None]: the shift amount is out of range (poison). *)
Record aevent := AEvent { av_index : Z; av_mask : gang bool }.

Fixpoint foreach_active_loop (W : nat) (fm : gang bool) (fuel : nat) (remaining : Z) : option (list aevent) :=
  match fuel with
  | O => None
  | S f =>
      let firstSet := cttz64 remaining in
      if 64 <=? firstSet then None          (* shl i64 1, 64: poison, then a branch on it *)
      else
        let iterMask := fun l : nat => wraps 32 firstSet =? Z.of_nat l in
        let ev := AEvent firstSet (fun l => iterMask l && fm l) in
        let newRemaining := Z.land remaining (Z.lnot (Z.shiftl 1 firstSet)) in
        if newRemaining =? 0 then Some [ev]
        else match foreach_active_loop W fm f newRemaining with
             | Some r => Some (ev :: r)
             | None => None
             end
  end.

(* The result: the body executions, and the internal mask afterwards (2508). *)
Definition foreach_active (W : nat) (im fm : gang bool) (fuel : nat) : option (list aevent * gang bool) :=
  match foreach_active_loop W fm fuel (movmsk W (fun l => im l && fm l)) with
  | Some evs => Some (evs, im)
  | None => None
  end.

(** ** foreach_unique *)

(* src/stmt.cpp:2577-2767.  [veq] is the comparison of 2680-2688 (icmp eq, or fcmp oeq for floating
   point).  An event is the value of the loop variable and the full mask while the body runs. *)
Record uevent (A : Type) := UEvent { uv_value : A; uv_mask : gang bool }.
Arguments UEvent {A} _ _.
Arguments uv_value {A} _.
Arguments uv_mask {A} _ _.

(* [UDone]: the loop has finished; [UMore]: out of fuel; [UPoison]: extractelement with an index
   outside the vector. *)
Inductive uresult (A : Type) :=
| UDone (evs : list (uevent A))
| UMore
| UPoison.
Arguments UDone {A} _.
Arguments UMore {A}.
Arguments UPoison {A}.

Definition ucons {A} (e : uevent A) (r : uresult A) : uresult A :=
  match r with UDone es => UDone (e :: es) | UMore => UMore | UPoison => UPoison end.

Fixpoint foreach_unique_loop {A} (veq : A -> A -> bool) (W : nat) (im fm : gang bool) (e : gang A)
    (fuel : nat) (remaining : Z) : uresult A :=
  match fuel with
  | O => UMore
  | S f =>
      match extract W e (cttz64 remaining) with
      | None => UPoison
      | Some u =>
          let loopMask := fun l : nat => im l && veq u (e l) in
          let ev := UEvent u (fun l => loopMask l && fm l) in
          let newRemaining := Z.land remaining (Z.lnot (movmsk W loopMask)) in
          if newRemaining =? 0 then UDone [ev]
          else ucons ev (foreach_unique_loop veq W im fm e f newRemaining)
      end
  end.

Definition foreach_unique {A} (veq : A -> A -> bool) (W : nat) (im fm : gang bool) (e : gang A)
    (fuel : nat) : uresult A :=
  foreach_unique_loop veq W im fm e fuel (movmsk W (fun l => im l && fm l)).

(** ** Calls through a varying function pointer *)

(* src/ctx.cpp:3742-3901 FunctionEmitContext::CallInst, varying callee (a vector of addresses).
   [call p mask s] is the effect on the program state and the varying result of calling the function
   at address [p] under a full mask.  The internal mask is set to callMask, so the callee gets
   callMask & function mask.  [result] is the memory that accumulates the results; it starts
   uninitialised ([None]).  The second component of the result lists the calls made. *)
Fixpoint varying_call_loop {St R} (call : Z -> gang bool -> St -> St * gang R) (W : nat)
    (fm : gang bool) (fptr : gang Z) (fuel : nat) (mask : gang bool) (s : St) (result : gang (option R))
  : option (St * gang (option R) * list (Z * gang bool)) :=
  match fuel with
  | O => None
  | S f =>
      if negb (b_any W mask) then Some (s, result, [])
      else
        match extract W fptr (wraps 32 (cttz64 (movmsk W mask))) with
        | None => None
        | Some p =>
            let callMask := fun l : nat => mask l && (p =? fptr l) in
            let calleeMask := fun l : nat => callMask l && fm l in
            let '(s', r) := call p calleeMask s in
            let result' := fun l => if callMask l then Some (r l) else result l in
            match varying_call_loop call W fm fptr f (fun l => mask l && negb (callMask l)) s' result' with
            | Some (s'', r'', cs) => Some (s'', r'', (p, calleeMask) :: cs)
            | None => None
            end
        end
  end.

Definition varying_call {St R} (call : Z -> gang bool -> St -> St * gang R) (W : nat)
    (im fm : gang bool) (fptr : gang Z) (fuel : nat) (s : St) :=
  varying_call_loop call W fm fptr fuel (fun l => im l && fm l) s (fun _ => None).
