(** Memory for task arguments: TaskGroupBase::AllocMemory, examples/common/tasksys.cpp 276-299, and the
    implicit sync before a function returns, src/ctx.cpp 3919-3925 (flag launchedTasks, 271 and 3979),
    src/func.cpp 527-583. *)
From Coq Require Import ZArith List Bool.
From Verif Require Import Bits.
Import ListNotations.
Open Scope Z_scope.

(** curMemBuffer, curMemBufferOffset, memBufferSize[], memBuffers[] (189-219).  m_new gives the address
    operator new[] returns the n-th time it is called; m_used counts the calls.  The destructor
    (239-244) is not modelled. *)
Record mem := { m_cur : nat; m_off : Z; m_size : nat -> Z; m_base : nat -> Z; m_new : nat -> Z; m_used : nat }.

(** NUM_MEM_BUFFERS, 178 *)
Definition num_buffers : nat := 16.

(** 222-234; [base0] is the address of the member array mem *)
Definition mem_init (base0 : Z) (news : nat -> Z) : mem :=
  {| m_cur := 0; m_off := 0; m_size := fun k => if Nat.eqb k 0 then 256 else 0;
     m_base := fun k => if Nat.eqb k 0 then base0 else 0; m_new := news; m_used := 0 |}.

(** Reset, 247-251 *)
Definition mem_reset (m : mem) : mem :=
  {| m_cur := 0; m_off := 0; m_size := m_size m; m_base := m_base m; m_new := m_new m; m_used := m_used m |}.

(** 279: intptr_t arithmetic, [~(alignment - 1)] an int converted to 64 bits *)
Definition align_up (p alignment : Z) : Z := Z.land (p + (alignment - 1)) (Z.lnot (alignment - 1)).

(** 276-299.  None: the assertion 289 fails.  int newOffset and int(size + alignment) are 32-bit
    conversions; 1 << (12 + curMemBuffer) does not overflow for curMemBuffer < 16. *)
Fixpoint alloc (fuel : nat) (m : mem) (size alignment : Z) : option (Z * mem) :=
  let base := m_base m (m_cur m) in
  let iptr := align_up (base + m_off m) alignment in
  let new_offset := wraps 32 (iptr - base + size) in
  if new_offset <? m_size m (m_cur m) then
    Some (iptr, {| m_cur := m_cur m; m_off := new_offset; m_size := m_size m; m_base := m_base m; m_new := m_new m; m_used := m_used m |})
  else
    match fuel with
    | O => None
    | S fuel =>
        let cur := S (m_cur m) in
        if (cur <? num_buffers)%nat then
          let alloc_size := Z.max (wraps 32 (size + alignment)) (2 ^ (12 + Z.of_nat cur)) in
          alloc fuel
            {| m_cur := cur; m_off := 0;
               m_size := fun k => if Nat.eqb k cur then alloc_size else m_size m k;
               m_base := fun k => if Nat.eqb k cur then m_new m (m_used m) else m_base m k;
               m_new := m_new m; m_used := S (m_used m) |} size alignment
        else None
    end.

Definition alloc_memory (m : mem) (size alignment : Z) : option (Z * mem) := alloc num_buffers m size alignment.

(** A block, with the number of the buffer it was taken from (for the proofs: the code only returns
    the address). *)
Record block := { b_buf : nat; b_addr : Z; b_size : Z }.

(** Requests one after the other; the blocks newest first. *)
Fixpoint allocs (m : mem) (reqs : list (Z * Z)) (acc : list block) : option (list block * mem) :=
  match reqs with
  | [] => Some (acc, m)
  | (size, alignment) :: r =>
      match alloc_memory m size alignment with
      | None => None
      | Some (p, m1) => allocs m1 r ({| b_buf := m_cur m1; b_addr := p; b_size := size |} :: acc)
      end
  end.

(** ** The implicit sync *)

(** The statements that matter; conditions are not modelled: any branch may be taken and a loop may be
    executed any number of times.  A return under varying control flow is a true return only for
    creturn, when all lanes have returned (src/ctx.cpp 1336-1348): that is [SIf SReturn SSkip] here, and a
    return that only switches lanes off is [SSkip].  switch and goto are not modelled. *)
Inductive stm := SSkip | SLaunch | SSync | SReturn | SBreak | SContinue | SSeq (a b : stm) | SIf (a b : stm) | SLoop (a : stm).

(** Emitted code: a return with or without a call of SyncInst. *)
Inductive code := KSkip | KLaunch | KSync | KReturn (sync : bool) | KBreak | KContinue | KSeq (a b : code) | KIf (a b : code) | KLoop (a : code).

(** Statements are emitted in the order of the text; launchedTasks is set when a launch is emitted
    (src/ctx.cpp 3979) and tested when a return is (3920). *)
Fixpoint emit (launched : bool) (s : stm) : code * bool :=
  match s with
  | SSkip => (KSkip, launched)
  | SLaunch => (KLaunch, true)
  | SSync => (KSync, launched)
  | SReturn => (KReturn launched, launched)
  | SBreak => (KBreak, launched)
  | SContinue => (KContinue, launched)
  | SSeq a b => let (ka, l1) := emit launched a in let (kb, l2) := emit l1 b in (KSeq ka kb, l2)
  | SIf a b => let (ka, l1) := emit launched a in let (kb, l2) := emit l1 b in (KIf ka kb, l2)
  | SLoop a => let (ka, l1) := emit launched a in (KLoop ka, l1)
  end.

(** A function body: with checkMask emitted twice, for a full and for another mask, otherwise once; a
    return is emitted at the end of each copy (src/func.cpp 512-583).  The flag is false at first
    (src/ctx.cpp 271). *)
Definition emit_function (check_mask : bool) (s : stm) : code :=
  let (k1, l1) := emit false s in
  if check_mask then
    let (k2, l2) := emit l1 s in KIf (KSeq k1 (KReturn l1)) (KSeq k2 (KReturn l2))
  else KSeq k1 (KReturn l1).

Inductive out := ONormal | OReturn | OBreak | OContinue.

(** What the code does to the function's task group: the first boolean says that tasks have been
    launched since the last sync (or the start) before the code is executed, the second one after. *)
Inductive exec : code -> bool -> bool -> out -> Prop :=
| x_skip h : exec KSkip h h ONormal
| x_launch h : exec KLaunch h true ONormal
| x_sync h : exec KSync h false ONormal
| x_return (sync : bool) h : exec (KReturn sync) h (if sync then false else h) OReturn
| x_break h : exec KBreak h h OBreak
| x_continue h : exec KContinue h h OContinue
| x_seq a b h1 h2 h3 r : exec a h1 h2 ONormal -> exec b h2 h3 r -> exec (KSeq a b) h1 h3 r
| x_seq_leave a b h1 h2 r : exec a h1 h2 r -> r <> ONormal -> exec (KSeq a b) h1 h2 r
| x_then a b h1 h2 r : exec a h1 h2 r -> exec (KIf a b) h1 h2 r
| x_else a b h1 h2 r : exec b h1 h2 r -> exec (KIf a b) h1 h2 r
| x_exit a h : exec (KLoop a) h h ONormal
| x_again a h1 h2 h3 r0 r : exec a h1 h2 r0 -> r0 = ONormal \/ r0 = OContinue -> exec (KLoop a) h2 h3 r -> exec (KLoop a) h1 h3 r
| x_loop_break a h1 h2 : exec a h1 h2 OBreak -> exec (KLoop a) h1 h2 ONormal
| x_loop_return a h1 h2 : exec a h1 h2 OReturn -> exec (KLoop a) h1 h2 OReturn.
