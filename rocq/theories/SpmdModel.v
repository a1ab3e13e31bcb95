(** Masked execution of SPMD control flow: a model of the code that ispc's front end emits.

    The source modelled is src/stmt.cpp (IfStmt, DoStmt, ForStmt, SwitchStmt, BreakStmt,
    ContinueStmt, ReturnStmt, DeclStmt), src/ctx.cpp (FunctionEmitContext: internal mask,
    function mask, returned / break / continue lanes, block entry mask), src/expr.cpp
    (lMaskForSymbol, lStoreAssignResult), src/ast.cpp (EstimateCost,
    SafeToRunWithMaskAllOff) and the mask check at function entry in src/func.cpp.

    ispc compiles a statement to LLVM IR; here emission and execution of the emitted code
    are fused into one interpreter [vexec].  What the C++ decides while emitting is in the
    static part of [cx]; what the emitted code loads, stores and branches on is in the state
    [vst].  A jump to the break target, to the continue target, or a true return
    instruction is an outcome of [vexec].  After such a jump nothing further in the same
    block is executed, which is what `bblock = nullptr` stands for in the C++.

    Simplifications, for the whole file: one 32 bit integer type for uniform and varying
    values; no pointers, references, structs or arrays; the CPU path only (no Xe hardware
    mask emulation), and no use of the --opt=disable-* switches; goto, unmasked and the
    foreach family are not in this language (foreach has a model of its own). *)
From Coq Require Import ZArith List Bool Arith.
From Verif Require Import Bits.
Import ListNotations.

Definition lane := nat.
Definition mask := lane -> bool.

(** ** Source language *)

(** BinaryExpr::Op (src/expr.h), without Div, Mod (unsafe, see stdlib) and the shifts. *)
Inductive binop := OAdd | OSub | OMul | OAnd | OOr | OXor | OLt | OLe | OEq | ONe.

(** Arithmetic on int32 wraps (LLVM add/sub/mul on i32); comparisons give a bool.
    src/expr.cpp lEmitBinaryArith 2007-2105, lEmitBinaryCmp. *)
Definition bop (o : binop) (a b : Z) : Z :=
  match o with
  | OAdd => wraps 32 (a + b)
  | OSub => wraps 32 (a - b)
  | OMul => wraps 32 (a * b)
  | OAnd => Z.land a b
  | OOr => Z.lor a b
  | OXor => Z.lxor a b
  | OLt => b2z (a <? b)%Z
  | OLe => b2z (a <=? b)%Z
  | OEq => b2z (a =? b)%Z
  | ONe => b2z (negb (a =? b)%Z)
  end.

(** Expressions of uniform type: they can only mention uniform symbols. *)
Inductive uexpr :=
| UConst (z : Z)
| UVar (u : nat)
| UOp (o : binop) (a b : uexpr).

(** Symbols of varying type: a local of the current function, or a file-scope variable
    (StorageClass::STATIC or not, src/sym.h). *)
Inductive var := VLoc (x : nat) | VGlob (static : bool) (x : nat).

(** Expressions of varying type.  A uniform expression is broadcast (TypeCastExpr);
    programIndex is the lane number. *)
Inductive vexpr :=
| XU (e : uexpr)
| XV (x : var)
| XIdx
| XOp (o : binop) (a b : vexpr).

(** The test of an if / loop, or the operand of a switch, with its variability. *)
Inductive test := TU (e : uexpr) | TV (e : vexpr).

(** Statements (src/stmt.h).  An absent `else` is [SSkip].  [SEmit k e] stands for a
    print or another library call with an effect of its own: site [k] is performed by the
    lanes that are on in the full mask, each with its own value of [e].  The body of a
    switch is its list of labelled sections (src/stmt.h CaseStmt 397, DefaultStmt); code
    before the first label is never executed and is left out. *)
Inductive stmt :=
| SSkip
| SSeq (a b : stmt)
| SDecl (x : nat) (e : vexpr)
| SUDecl (u : nat) (e : uexpr)
| SAssign (x : var) (e : vexpr)
| SUAssign (u : nat) (e : uexpr)
| SEmit (k : nat) (e : vexpr)
| SIf (coh : bool) (t : test) (a b : stmt)
| SDo (coh : bool) (body : stmt) (t : test)
| SFor (coh : bool) (init : stmt) (t : test) (step body : stmt)
| SSwitch (t : test) (ss : secs)
| SBreak
| SContinue
| SReturn (e : vexpr)
| SCall (x : var) (f : nat) (us : list uexpr) (vs : list vexpr)
with secs :=
| SNil
| SSec (lbl : option Z) (body : stmt) (rest : secs).

Scheme stmt_mind := Induction for stmt Sort Prop
  with secs_mind := Induction for secs Sort Prop.

(** ** Static analyses made by the compiler *)

(** src/stmt.cpp lHasVaryingBreakOrContinue 926-931 (callbacks 881-919).  [under] is
    varyingControlFlowDepth > 0.  Only `if`s with a varying test count, and nested for / do
    loops are not entered; a nested switch is. *)
Fixpoint has_varying_bc (under : bool) (s : stmt) : bool :=
  match s with
  | SSeq a b => has_varying_bc under a || has_varying_bc under b
  | SIf _ (TU _) a b => has_varying_bc under a || has_varying_bc under b
  | SIf _ (TV _) a b => has_varying_bc true a || has_varying_bc true b
  | SBreak | SContinue => under
  | SSwitch _ ss => has_varying_bc_secs under ss
  | _ => false
  end
with has_varying_bc_secs (under : bool) (ss : secs) : bool :=
  match ss with
  | SNil => false
  | SSec _ body rest => has_varying_bc under body || has_varying_bc_secs under rest
  end.

(** src/stmt.cpp DoStmt::TypeCheck 1070-1100 and ForStmt::TypeCheck 1326-1345: the loop
    is compiled as a uniform loop only if its test is uniform and its body has no break or
    continue under a varying `if`; otherwise the test is converted to a varying bool.
    SwitchStmt::EmitCode 3078 uses the same condition for isUniformCF. *)
Definition uniform_cf (t : test) (body : stmt) : bool :=
  match t with TU _ => negb (has_varying_bc false body) | TV _ => false end.

Definition uniform_cf_switch (t : test) (ss : secs) : bool :=
  match t with TU _ => negb (has_varying_bc_secs false ss) | TV _ => false end.

(** src/ast.cpp SafeToRunWithMaskAllOff 614-618, callback lCheckAllOffSafety 460-611,
    restricted to this language: calls of functions not marked safe, print, assignments to
    uniform variables are unsafe.  (A declaration of a uniform variable is not an
    AssignExpr, and loops, break, continue and return are not mentioned there.) *)
Fixpoint safe (s : stmt) : bool :=
  match s with
  | SSeq a b => safe a && safe b
  | SUAssign _ _ | SEmit _ _ | SCall _ _ _ _ => false
  | SIf _ _ a b => safe a && safe b
  | SDo _ body _ => safe body
  | SFor _ i _ st body => safe i && safe st && safe body
  | SSwitch _ ss => safe_secs ss
  | _ => true
  end
with safe_secs (ss : secs) : bool :=
  match ss with
  | SNil => true
  | SSec _ body rest => safe body && safe_secs rest
  end.

(** EstimateCost.  src/ispc.h 979-1011 for the constants, src/expr.cpp 3170, 3655, 9146 and
    the EstimateCost methods in src/stmt.cpp; src/ast.cpp 425-455 sums over the tree.
    ConstExpr and SymbolExpr cost nothing; a binary operation 1 unless both operands are
    constants; converting a uniform value to varying is a TypeCastExpr (src/expr.cpp
    8291), charged 1 here.  The theorems do not depend on these numbers: they hold for every
    cost function (see [opts]). *)
Fixpoint ucost (e : uexpr) : Z :=
  match e with
  | UConst _ | UVar _ => 0
  | UOp _ a b => (match a, b with UConst _, UConst _ => 0 | _, _ => 1 end) + ucost a + ucost b
  end%Z.

Fixpoint xcost (e : vexpr) : Z :=
  match e with
  | XU e => ucost e
  | XV _ | XIdx => 0
  | XOp _ a b => 1 + xcost a + xcost b
  end%Z.

Definition tcost (t : test) : Z := match t with TU e => ucost e | TV e => xcost e end.

Fixpoint est_cost (s : stmt) : Z :=
  match s with
  | SSkip => 0
  | SSeq a b => est_cost a + est_cost b
  | SDecl _ e => xcost e
  | SUDecl _ e => ucost e
  | SAssign _ e => 1 + xcost e
  | SUAssign _ e => 1 + ucost e
  | SEmit _ e => 4 + xcost e
  | SIf _ t a b => (match t with TU _ => 2 | TV _ => 3 end) + tcost t + est_cost a + est_cost b
  | SDo _ body t => (match t with TU _ => 4 | TV _ => 6 end) + est_cost body + tcost t
  | SFor _ i t st body =>
      (match t with TU _ => 4 | TV _ => 6 end) + est_cost i + tcost t + est_cost st + est_cost body
  | SSwitch t ss => (match t with TU _ => 4 | TV _ => 12 end) + tcost t + est_cost_secs ss
  | SBreak | SContinue => 3
  | SReturn e => 4 + xcost e
  | SCall _ _ us vs => 5 + fold_right Z.add 0 (map ucost us) + fold_right Z.add 0 (map xcost vs)
  end%Z
with est_cost_secs (ss : secs) : Z :=
  match ss with
  | SNil => 0
  | SSec _ body rest => est_cost body + est_cost_secs rest
  end%Z.

(** A function: numbers of its uniform and varying parameters (which are the locals
    0 .. n-1 of their kind) and its body. *)
Record fundef := { f_nu : nat; f_nv : nat; f_body : stmt }.

(** The compiler's configuration: gang width (programCount), the cost estimate, and the
    program's functions. *)
Record opts := { o_width : nat; o_cost : stmt -> Z; o_funs : list fundef }.

(** src/stmt.cpp 712-721: run both sides of a varying `if` as straight-line predicated
    code?  PREDICATE_SAFE_IF_STATEMENT_COST is 6 (src/ispc.h 1009). *)
Definition predicated (o : opts) (a b : stmt) : bool :=
  (safe a && safe b) && (o_cost o a + o_cost o b <? 6)%Z.

(** src/stmt.cpp lCheckMask 2877-2890: test the mask after a case / default label? *)
Definition check_mask (o : opts) (s : stmt) : bool :=
  (6 <? o_cost o s)%Z || negb (safe s).

(** src/func.cpp 503-509: does the function start with an "is the mask all on" test?
    CHECK_MASK_AT_FUNCTION_START_COST is 16 (src/ispc.h 1008). *)
Definition check_mask_at_start (o : opts) (s : stmt) : bool := (16 <? o_cost o s)%Z.

(** ** The function emission context *)

(** CFInfo::CFType, without the foreach kinds (src/ctx.cpp 66). *)
Inductive cftype := CIf | CLoop | CSwitch.

Definition cftype_eqb (a b : cftype) : bool :=
  match a, b with CIf, CIf | CLoop, CLoop | CSwitch, CSwitch => true | _, _ => false end.

(** The part of FunctionEmitContext (src/ctx.h) that is fixed while the code of one
    statement runs: the function mask; controlFlowInfo as (type, isUniform), innermost
    first; whether breakTarget, continueTarget, breakLanesAddressInfo and
    continueLanesAddressInfo are non-null; the value of blockEntryMask;
    switchConditionWasUniform; and Symbol::varyingCFDepth of the function's locals. *)
Record cx := {
  c_fm : mask;
  c_cf : list (cftype * bool);
  c_bt : bool;
  c_ct : bool;
  c_bl : bool;
  c_cl : bool;
  c_be : mask;
  c_swu : bool;
  c_dep : nat -> nat
}.

(** FunctionEmitContext::VaryingCFDepth, src/ctx.cpp 1216-1224. *)
Definition vdepth (cf : list (cftype * bool)) : nat :=
  length (filter (fun e => negb (snd e)) cf).

(** inSwitchStatement, src/ctx.cpp 658-671. *)
Fixpoint in_switch (cf : list (cftype * bool)) : bool :=
  match cf with
  | [] => false
  | (CIf, _) :: r => in_switch r
  | (CSwitch, _) :: _ => true
  | (CLoop, _) :: _ => false
  end.

(** ifsInCFAllUniform, src/ctx.cpp 792-806. *)
Fixpoint ifs_all_uniform (ty : cftype) (cf : list (cftype * bool)) : bool :=
  match cf with
  | [] => true
  | (t, u) :: r => if cftype_eqb t ty then true else if u then ifs_all_uniform ty r else false
  end.

(** ** Run-time state *)

(** Values of file-scope varying variables are indexed by (static?, number). *)
Definition gkey := (bool * nat)%type.

(** internalMask, returnedLanes, break lanes, continue lanes, varying locals, uniform
    locals, file-scope varying variables, return value memory, and the effects so far. *)
Record vst := {
  v_mask : mask;
  v_ret : mask;
  v_brk : mask;
  v_cnt : mask;
  v_V : nat -> lane -> Z;
  v_U : nat -> Z;
  v_G : gkey -> lane -> Z;
  v_rv : lane -> Z;
  v_tr : list (nat * (lane -> option Z))
}.

Definition all_on : mask := fun _ => true.
Definition all_off : mask := fun _ => false.
Definition mand (a b : mask) : mask := fun l => a l && b l.
Definition mor (a b : mask) : mask := fun l => a l || b l.
Definition mnot (a : mask) : mask := fun l => negb (a l).

(** Any, All, None, MasksAllEqual on the lanes of the gang (src/ctx.cpp 1380-1440). *)
Definition m_any (w : nat) (m : mask) : bool := existsb m (seq 0 w).
Definition m_all (w : nat) (m : mask) : bool := forallb m (seq 0 w).
Definition m_equal (w : nat) (a b : mask) : bool := forallb (fun l => Bool.eqb (a l) (b l)) (seq 0 w).

(** GetFullMask, src/ctx.cpp 436-439. *)
Definition full (c : cx) (s : vst) : mask := mand (v_mask s) (c_fm c).

Definition set_mask (m : mask) (s : vst) : vst :=
  {| v_mask := m; v_ret := v_ret s; v_brk := v_brk s; v_cnt := v_cnt s; v_V := v_V s;
     v_U := v_U s; v_G := v_G s; v_rv := v_rv s; v_tr := v_tr s |}.
Definition set_bc (b k : mask) (s : vst) : vst :=
  {| v_mask := v_mask s; v_ret := v_ret s; v_brk := b; v_cnt := k; v_V := v_V s;
     v_U := v_U s; v_G := v_G s; v_rv := v_rv s; v_tr := v_tr s |}.
Definition set_ret (r : mask) (s : vst) : vst :=
  {| v_mask := v_mask s; v_ret := r; v_brk := v_brk s; v_cnt := v_cnt s; v_V := v_V s;
     v_U := v_U s; v_G := v_G s; v_rv := v_rv s; v_tr := v_tr s |}.
Definition set_V (V : nat -> lane -> Z) (s : vst) : vst :=
  {| v_mask := v_mask s; v_ret := v_ret s; v_brk := v_brk s; v_cnt := v_cnt s; v_V := V;
     v_U := v_U s; v_G := v_G s; v_rv := v_rv s; v_tr := v_tr s |}.
Definition set_U (U : nat -> Z) (s : vst) : vst :=
  {| v_mask := v_mask s; v_ret := v_ret s; v_brk := v_brk s; v_cnt := v_cnt s; v_V := v_V s;
     v_U := U; v_G := v_G s; v_rv := v_rv s; v_tr := v_tr s |}.
Definition set_G (G : gkey -> lane -> Z) (s : vst) : vst :=
  {| v_mask := v_mask s; v_ret := v_ret s; v_brk := v_brk s; v_cnt := v_cnt s; v_V := v_V s;
     v_U := v_U s; v_G := G; v_rv := v_rv s; v_tr := v_tr s |}.
Definition set_rv (r : lane -> Z) (s : vst) : vst :=
  {| v_mask := v_mask s; v_ret := v_ret s; v_brk := v_brk s; v_cnt := v_cnt s; v_V := v_V s;
     v_U := v_U s; v_G := v_G s; v_rv := r; v_tr := v_tr s |}.
Definition set_tr (t : list (nat * (lane -> option Z))) (s : vst) : vst :=
  {| v_mask := v_mask s; v_ret := v_ret s; v_brk := v_brk s; v_cnt := v_cnt s; v_V := v_V s;
     v_U := v_U s; v_G := v_G s; v_rv := v_rv s; v_tr := t |}.

(** ** Expressions *)

Fixpoint ueval (U : nat -> Z) (e : uexpr) : Z :=
  match e with
  | UConst z => wraps 32 z
  | UVar u => U u
  | UOp o a b => bop o (ueval U a) (ueval U b)
  end.

(** The value of a varying expression in lane [l].  It is computed for every lane, on or
    off. *)
Fixpoint xeval (s : vst) (l : lane) (e : vexpr) : Z :=
  match e with
  | XU e => ueval (v_U s) e
  | XV (VLoc x) => v_V s x l
  | XV (VGlob st x) => v_G s (st, x) l
  | XIdx => Z.of_nat l
  | XOp o a b => bop o (xeval s l a) (xeval s l b)
  end.

Definition is_true (z : Z) : bool := negb (z =? 0)%Z.

(** A test as a mask; a uniform test that was converted to varying is the same in all
    lanes. *)
Definition teval (s : vst) (t : test) : mask :=
  match t with
  | TU e => fun _ => is_true (ueval (v_U s) e)
  | TV e => fun l => is_true (xeval s l e)
  end.

Definition upd {A} (f : nat -> A) (x : nat) (a : A) : nat -> A :=
  fun y => if y =? x then a else f y.

Definition gkey_eqb (a b : gkey) : bool := Bool.eqb (fst a) (fst b) && (snd a =? snd b).

Definition gupd (G : gkey -> lane -> Z) (k : gkey) (f : lane -> Z) : gkey -> lane -> Z :=
  fun k' => if gkey_eqb k' k then f else G k'.

Definition blend (m : mask) (new old : lane -> Z) : lane -> Z :=
  fun l => if m l then new l else old l.

(** lStoreAssignResult and lMaskForSymbol, src/expr.cpp 1161-1203: which mask a store to a
    varying symbol uses.  Note that the test `baseSym->varyingCFDepth ==
    ctx->VaryingCFDepth()` is made for file-scope variables too, whose varyingCFDepth is 0
    (src/sym.cpp 29). *)
Definition store_mask (c : cx) (s : vst) (x : var) : mask :=
  match x with
  | VLoc x => if c_dep c x =? vdepth (c_cf c) then all_on else v_mask s
  | VGlob false _ => if 0 =? vdepth (c_cf c) then all_on else full c s
  | VGlob true _ => full c s
  end.

Definition store (c : cx) (s : vst) (x : var) (f : lane -> Z) : vst :=
  match x with
  | VLoc y => set_V (upd (v_V s) y (blend (store_mask c s x) f (v_V s y))) s
  | VGlob st y => set_G (gupd (v_G s) (st, y) (blend (store_mask c s x) f (v_G s (st, y)))) s
  end.

(** ** Context changes *)

Definition push_if (u : bool) (c : cx) : cx :=
  {| c_fm := c_fm c; c_cf := (CIf, u) :: c_cf c; c_bt := c_bt c; c_ct := c_ct c; c_bl := c_bl c;
     c_cl := c_cl c; c_be := c_be c; c_swu := c_swu c; c_dep := c_dep c |}.

(** StartLoop, src/ctx.cpp 560-586. *)
Definition push_loop (u : bool) (c : cx) : cx :=
  {| c_fm := c_fm c; c_cf := (CLoop, u) :: c_cf c; c_bt := true; c_ct := true; c_bl := negb u;
     c_cl := negb u; c_be := all_off; c_swu := c_swu c; c_dep := c_dep c |}.

(** StartSwitch, src/ctx.cpp 873-895 (break lanes are always allocated), followed by
    SetBlockEntryMask (src/stmt.cpp 3104) and the assignment of
    switchConditionWasUniform in SwitchInst (1176-1177). *)
Definition push_switch (u scalar : bool) (be : mask) (c : cx) : cx :=
  {| c_fm := c_fm c; c_cf := (CSwitch, u) :: c_cf c; c_bt := true; c_ct := false; c_bl := true;
     c_cl := false; c_be := be; c_swu := scalar; c_dep := c_dep c |}.

(** SetBlockEntryMask, src/ctx.cpp 454. *)
Definition set_be (be : mask) (c : cx) : cx :=
  {| c_fm := c_fm c; c_cf := c_cf c; c_bt := c_bt c; c_ct := c_ct c; c_bl := c_bl c;
     c_cl := c_cl c; c_be := be; c_swu := c_swu c; c_dep := c_dep c |}.

(** The context at the start of a function with entry mask [fm]: src/ctx.cpp 253-330. *)
Definition fun_cx (fm : mask) (dep : nat -> nat) : cx :=
  {| c_fm := fm; c_cf := []; c_bt := false; c_ct := false; c_bl := false; c_cl := false;
     c_be := all_off; c_swu := false; c_dep := dep |}.

(** Symbol::varyingCFDepth of the varying locals declared in [s]: DeclStmt::EmitCode sets
    it to the VaryingCFDepth at the declaration (src/stmt.cpp 127).  ForStmt::EmitCode
    calls StartLoop before it emits the init statement (src/stmt.cpp 1189, 1198).  The
    result lists (variable, depth). *)
Fixpoint decl_depths (d : nat) (s : stmt) : list (nat * nat) :=
  match s with
  | SSeq a b => decl_depths d a ++ decl_depths d b
  | SDecl x _ => [(x, d)]
  | SIf _ (TU _) a b => decl_depths d a ++ decl_depths d b
  | SIf _ (TV _) a b => decl_depths (S d) a ++ decl_depths (S d) b
  | SDo _ body t => decl_depths (if uniform_cf t body then d else S d) body
  | SFor _ i t st body =>
      let d' := if uniform_cf t body then d else S d in
      decl_depths d' i ++ decl_depths d' st ++ decl_depths d' body
  | SSwitch t ss => decl_depths_secs (if uniform_cf_switch t ss then d else S d) ss
  | _ => []
  end
with decl_depths_secs (d : nat) (ss : secs) : list (nat * nat) :=
  match ss with
  | SNil => []
  | SSec _ body rest => decl_depths d body ++ decl_depths_secs d rest
  end.

(** Parameters have the default depth 0 (src/sym.cpp 29). *)
Fixpoint lookup_depth (l : list (nat * nat)) (x : nat) : nat :=
  match l with
  | [] => 0
  | (y, d) :: r => if y =? x then d else lookup_depth r x
  end.

Definition dep_of (body : stmt) : nat -> nat := lookup_depth (decl_depths 0 body).

(** ** Mask bookkeeping at the end of constructs *)

(** restoreMaskGivenReturns, src/ctx.cpp 641-654. *)
Definition restore_given_returns (saved : mask) (s : vst) : vst :=
  set_mask (mand saved (mnot (v_ret s))) s.

(** EndIf for a varying if, src/ctx.cpp 503-558. *)
Definition end_if (c : cx) (saved : mask) (s : vst) : vst :=
  let s1 := restore_given_returns saved s in
  if c_cl c || c_bl c then
    let bc := mor (if c_cl c then v_cnt s else all_off) (if c_bl c then v_brk s else all_off) in
    set_mask (mand (v_mask s1) (mnot bc)) s1
  else s1.

(** EndLoop, src/ctx.cpp 588-600, and the restoration of the enclosing construct's break
    and continue lanes by popCFState (1362-1391). *)
Definition end_loop (u : bool) (s0 s : vst) : vst :=
  set_bc (v_brk s0) (v_cnt s0) (if u then s else restore_given_returns (v_mask s0) s).

(** jumpIfAllLoopLanesAreDone's condition, src/ctx.cpp 808-836. *)
Definition all_lanes_done (w : nat) (c : cx) (s : vst) : bool :=
  if negb (c_bl c) then m_equal w (mand (v_cnt s) (c_fm c)) (c_be c)
  else
    let fin := mor (v_ret s) (v_brk s) in
    let fin := if c_cl c then mor fin (v_cnt s) else fin in
    m_equal w (mand fin (c_fm c)) (c_be c).

(** RestoreContinuedLanes and ClearBreakLanes, src/ctx.cpp 850-871. *)
Definition restore_continued (c : cx) (s : vst) : vst :=
  let s1 := if c_cl c then set_bc (v_brk s) all_off (set_mask (mor (v_mask s) (v_cnt s)) s) else s in
  if c_bl c then set_bc all_off (v_cnt s1) s1 else s1.

(** ** Outcomes *)

(** Control reaches the end of the statement, jumps to the break target, jumps to the
    continue target, or executes a return instruction. *)
Inductive vout := VNorm | VBrk | VCont | VRet.

(** Break, src/ctx.cpp 674-737.  [None] is a compile-time error. *)
Definition do_break (w : nat) (c : cx) (s : vst) : option (vout * vst) :=
  if negb (c_bt c) then None
  else if in_switch (c_cf c) && c_swu c && ifs_all_uniform CSwitch (c_cf c) then Some (VBrk, s)
  else if negb (in_switch (c_cf c)) && ifs_all_uniform CLoop (c_cf c) then Some (VBrk, s)
  else
    let s1 := set_mask all_off (set_bc (mor (v_mask s) (v_brk s)) (v_cnt s) s) in
    if c_ct c then Some (if all_lanes_done w c s1 then VCont else VNorm, s1)
    else Some (if all_lanes_done w c s1 then VBrk else VNorm, s1).

(** Continue, src/ctx.cpp 748-786 (foreach_active is not in this language). *)
Definition do_continue (w : nat) (c : cx) (s : vst) : option (vout * vst) :=
  if negb (c_ct c) then None
  else if ifs_all_uniform CLoop (c_cf c) then Some (VCont, s)
  else
    let s1 := set_mask all_off (set_bc (v_brk s) (mor (v_mask s) (v_cnt s)) s) in
    Some (if all_lanes_done w c s1 then VCont else VNorm, s1).

(** CurrentLanesReturned for a function returning a varying value,
    src/ctx.cpp 1286-1362. *)
Definition do_return (w : nat) (c : cx) (s : vst) (f : lane -> Z) : vout * vst :=
  let s1 := set_rv (blend (v_mask s) f (v_rv s)) s in
  if vdepth (c_cf c) =? 0 then (VRet, s1)
  else
    let r := mor (v_ret s1) (full c s1) in
    if m_equal w (c_fm c) r then (VRet, s1)
    else (VNorm, set_mask all_off (set_ret r s1)).

(** ** Switch labels *)

Fixpoint case_values (ss : secs) : list Z :=
  match ss with
  | SNil => []
  | SSec (Some c) _ r => c :: case_values r
  | SSec None _ r => case_values r
  end.

(** Which operand values a label stands for, given all the case values of the switch:
    EmitCaseLabel 1108-1111, EmitDefaultLabel 1022-1040 (src/ctx.cpp). *)
Definition label_matches (cases : list Z) (lbl : option Z) (v : Z) : bool :=
  match lbl with
  | Some c => (v =? c)%Z
  | None => negb (existsb (fun c => (v =? c)%Z) cases)
  end.

(** The llvm::SwitchInst for a scalar operand (src/ctx.cpp 1179-1196): the sections from
    the label that is jumped to onwards. *)
Fixpoint sections_from (p : option Z -> bool) (ss : secs) : option secs :=
  match ss with
  | SNil => None
  | SSec lbl body r => if p lbl then Some ss else sections_from p r
  end.

Definition scalar_target (v : Z) (ss : secs) : secs :=
  match sections_from (fun l => match l with Some c => (v =? c)%Z | None => false end) ss with
  | Some r => r
  | None =>
      match sections_from (fun l => match l with None => true | Some _ => false end) ss with
      | Some r => r
      | None => SNil
      end
  end.

(** ** The interpreter *)

(** Arguments of a call: parameter [i] of each kind is local [i]. *)
Fixpoint bind {A} (k : nat) (args : list A) (dflt : nat -> A) : nat -> A :=
  match args with
  | [] => dflt
  | a :: r => bind (S k) r (upd dflt k a)
  end.

(** State at the entry of a function: StartFunction stores "all on" to the internal mask
    and "all off" to the returned lanes (src/ctx.cpp 262-281).  Uninitialised memory is
    modelled as 0. *)
Definition fun_state (U : nat -> Z) (V : nat -> lane -> Z) (s : vst) : vst :=
  {| v_mask := all_on; v_ret := all_off; v_brk := all_off; v_cnt := all_off; v_V := V; v_U := U;
     v_G := v_G s; v_rv := fun _ => 0%Z; v_tr := v_tr s |}.

(** src/func.cpp 511-541: in the "all on" copy of the body the function mask is the
    constant all on. *)
Definition entry_mask (o : opts) (body : stmt) (fm : mask) : mask :=
  if check_mask_at_start o body && m_all (o_width o) fm then all_on else fm.

Fixpoint vexec (n : nat) (o : opts) (c : cx) (s : stmt) (st : vst) {struct n}
  : option (vout * vst) :=
  match n with
  | O => None
  | S n =>
    match s with
    | SSkip => Some (VNorm, st)
    | SSeq a b =>
        (* StmtList::EmitCode, src/stmt.cpp 3467-3477 *)
        match vexec n o c a st with
        | Some (VNorm, st1) => vexec n o c b st1
        | r => r
        end
    | SDecl x e =>
        (* DeclStmt::EmitCode 110-274: the initializer is stored without a mask *)
        Some (VNorm, set_V (upd (v_V st) x (fun l => xeval st l e)) st)
    | SUDecl u e | SUAssign u e => Some (VNorm, set_U (upd (v_U st) u (ueval (v_U st) e)) st)
    | SAssign x e => Some (VNorm, store c st x (fun l => xeval st l e))
    | SEmit k e =>
        Some (VNorm, set_tr (v_tr st ++ [(k, fun l => if full c st l then Some (xeval st l e) else None)]) st)
    | SIf coh (TU e) a b =>
        (* IfStmt::EmitCode 528-563 *)
        vexec n o (push_if true c) (if is_true (ueval (v_U st) e) then a else b) st
    | SIf coh (TV e) a b =>
        (* IfStmt::emitVaryingIf 666-732 *)
        let t := fun l => is_true (xeval st l e) in
        let old := v_mask st in
        let w := o_width o in
        if coh then
          if m_all w (full c st) then
            (* emitMaskAllOn 737-803 *)
            if m_all w t then vif n o c all_on all_on all_off true false a b st
            else if m_any w t then vif n o c all_on t (mnot t) true true a b st
            else vif n o c all_on all_off all_on false true a b st
          else vif_mixed n o c old t a b st
        else if predicated o a b then
          vif n o c old (mand old t) (mand old (mnot t)) true true a b st
        else vif_mixed n o c old t a b st
    | SDo coh body t =>
        (* DoStmt::EmitCode 934-1068 *)
        let u := uniform_cf t body in
        let c1 := push_loop u c in
        match vbody n o c1 u coh t SSkip body (set_bc all_off all_off st) with
        | Some (VNorm, st1) => Some (VNorm, end_loop u st st1)
        | r => r
        end
    | SFor coh i t step body =>
        (* ForStmt::EmitCode 1165-1324 *)
        let u := uniform_cf t body in
        let c1 := push_loop u c in
        match vexec n o c1 i (set_bc all_off all_off st) with
        | Some (VNorm, st1) =>
            match vtop n o c1 u coh t step body st1 with
            | Some (VNorm, st2) => Some (VNorm, end_loop u st st2)
            | r => r
            end
        | r => r
        end
    | SSwitch t ss =>
        (* SwitchStmt::EmitCode 3044-3111 *)
        let u := uniform_cf_switch t ss in
        match t with
        | TU e =>
            let c1 := push_switch u true (full c st) c in
            match vrun n o c1 (scalar_target (ueval (v_U st) e) ss) (set_bc all_off all_off st) with
            | Some (VNorm, st1) | Some (VBrk, st1) => Some (VNorm, end_loop u st st1)
            | r => r
            end
        | TV e =>
            let c1 := push_switch u false (full c st) c in
            let v := fun l => xeval st l e in
            match vsecs n o c1 (v_mask st) v (case_values ss) ss
                    (set_mask all_off (set_bc all_off all_off st)) with
            | Some (VNorm, st1) | Some (VBrk, st1) => Some (VNorm, end_loop u st st1)
            | r => r
            end
        end
    | SBreak => do_break (o_width o) c st
    | SContinue => do_continue (o_width o) c st
    | SReturn e => Some (do_return (o_width o) c st (fun l => xeval st l e))
    | SCall x f us vs =>
        (* FunctionCallExpr::GetValue; FunctionEmitContext::CallInst passes GetFullMask() *)
        match nth_error (o_funs o) f with
        | None => None
        | Some fd =>
            let U := bind 0 (map (ueval (v_U st)) us) (fun _ => 0%Z) in
            let V := bind 0 (map (fun e l => xeval st l e) vs) (fun _ _ => 0%Z) in
            let c1 := fun_cx (entry_mask o (f_body fd) (full c st)) (dep_of (f_body fd)) in
            match vexec n o c1 (f_body fd) (fun_state U V st) with
            | Some (VNorm, st1) | Some (VRet, st1) =>
                Some (VNorm, store c (set_tr (v_tr st1) (set_G (v_G st1) st)) x (v_rv st1))
            | _ => None
            end
        end
    end
  end

(** A varying `if` between StartVaryingIf([saved]) and EndIf: the true side runs (if [ra])
    with mask [ma], then the false side (if [rb]) with mask [mb].  emitMaskedTrueAndFalse
    648-661 and the three cases of emitMaskAllOn. *)
with vif (n : nat) (o : opts) (c : cx) (saved ma mb : mask) (ra rb : bool) (a b : stmt) (st : vst)
       {struct n} : option (vout * vst) :=
  match n with
  | O => None
  | S n =>
    match (if ra then vexec n o (push_if false c) a (set_mask ma st) else Some (VNorm, st)) with
    | Some (VNorm, st1) =>
        match (if rb then vexec n o (push_if false c) b (set_mask mb st1) else Some (VNorm, st1)) with
        | Some (VNorm, st2) => Some (VNorm, end_if c saved st2)
        | r => r
        end
    | r => r
    end
  end

(** emitMaskMixed 808-852: each side is skipped if no lane of the full mask wants it. *)
with vif_mixed (n : nat) (o : opts) (c : cx) (old t : mask) (a b : stmt) (st : vst) {struct n}
  : option (vout * vst) :=
  match n with
  | O => None
  | S n =>
    let ma := mand old t in
    let mb := mand old (mnot t) in
    vif n o c old ma mb (m_any (o_width o) (mand ma (c_fm c))) (m_any (o_width o) (mand mb (c_fm c)))
      a b st
  end

(** The loop test (block "for_test"), ForStmt::EmitCode 1204-1235, DoStmt 1044-1059. *)
with vtop (n : nat) (o : opts) (c : cx) (u coh : bool) (t : test) (step body : stmt) (st : vst)
       {struct n} : option (vout * vst) :=
  match n with
  | O => None
  | S n =>
    if u then
      if teval st t 0 then vbody n o c u coh t step body st else Some (VNorm, st)
    else
      let st1 := set_mask (mand (v_mask st) (teval st t)) st in
      if m_any (o_width o) (full c st1) then vbody n o c u coh t step body st1
      else Some (VNorm, st1)
  end

(** The loop body and step (blocks "for_loop", "for_step"), ForStmt::EmitCode 1238-1312,
    DoStmt 967-1040.  With a coherence check the all-on copy of the body starts by storing
    "all on" to the internal mask. *)
with vbody (n : nat) (o : opts) (c : cx) (u coh : bool) (t : test) (step body : stmt) (st : vst)
       {struct n} : option (vout * vst) :=
  match n with
  | O => None
  | S n =>
    let c1 := set_be (full c st) c in
    let st1 := if coh && negb u && m_all (o_width o) (full c st) then set_mask all_on st else st in
    match vexec n o c1 body st1 with
    | Some (VNorm, st2) | Some (VCont, st2) =>
        match vexec n o c1 step (restore_continued c st2) with
        | Some (VNorm, st3) => vtop n o c u coh t step body st3
        | r => r
        end
    | Some (VBrk, st2) => Some (VNorm, st2)
    | r => r
    end
  end

(** The sections of a switch with a scalar operand, from the one jumped to. *)
with vrun (n : nat) (o : opts) (c : cx) (ss : secs) (st : vst) {struct n} : option (vout * vst) :=
  match n with
  | O => None
  | S n =>
    match ss with
    | SNil => Some (VNorm, st)
    | SSec _ body r =>
        match vexec n o c body st with
        | Some (VNorm, st1) => vrun n o c r st1
        | x => x
        end
    end
  end

(** The sections of a switch with a varying operand: EmitCaseLabel 1046-1125,
    EmitDefaultLabel 938-1044, addSwitchMaskCheck 908-925 (src/ctx.cpp).  [saved] is
    getMaskAtSwitchEntry(), the internal mask.  The mask check tests the internal mask. *)
with vsecs (n : nat) (o : opts) (c : cx) (saved : mask) (v : lane -> Z) (cases : list Z) (ss : secs)
       (st : vst) {struct n} : option (vout * vst) :=
  match n with
  | O => None
  | S n =>
    match ss with
    | SNil => Some (VNorm, st)
    | SSec lbl body r =>
        let m := mor (v_mask st) (mand saved (fun l => label_matches cases lbl (v l))) in
        let st1 := set_mask m st in
        if check_mask o body && negb (m_any (o_width o) m) then vsecs n o c saved v cases r st1
        else
          match vexec n o c body st1 with
          | Some (VNorm, st2) => vsecs n o c saved v cases r st2
          | x => x
          end
    end
  end.

(** Calling function [f] with entry mask [fm], uniform arguments [us], varying arguments
    [vs] and file-scope variables [G]: the return values, file-scope variables and effects
    when the call returns. *)
Definition call_state (us : list Z) (vs : list (lane -> Z)) (G : gkey -> lane -> Z) : vst :=
  {| v_mask := all_on; v_ret := all_off; v_brk := all_off; v_cnt := all_off;
     v_V := bind 0 vs (fun _ _ => 0%Z); v_U := bind 0 us (fun _ => 0%Z); v_G := G;
     v_rv := fun _ => 0%Z; v_tr := [] |}.

Definition gang_call (n : nat) (o : opts) (f : nat) (fm : mask) (us : list Z) (vs : list (lane -> Z))
    (G : gkey -> lane -> Z) : option ((lane -> Z) * (gkey -> lane -> Z) * list (nat * (lane -> option Z))) :=
  match nth_error (o_funs o) f with
  | None => None
  | Some fd =>
      match vexec n o (fun_cx (entry_mask o (f_body fd) fm) (dep_of (f_body fd))) (f_body fd)
              (call_state us vs G) with
      | Some (VNorm, st) | Some (VRet, st) => Some (v_rv st, v_G st, v_tr st)
      | _ => None
      end
  end.
