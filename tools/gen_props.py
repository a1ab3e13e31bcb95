#!/usr/bin/env python3
# Regenerates properties.jsonl from the table below.
import json
P=[]
def p(id,title,statement,quantifier,why,anchors):
    P.append(dict(id=id,title=title,statement=statement,quantifier=quantifier,why_tests_cant=why,anchors=anchors))

p("C01","Varying control flow computes each lane's serial result",
  "When a function whose body uses varying if/else, for/while/do loops, break, continue, return and nested blocks finishes, every program instance that was active on entry has exactly the variable values (and return value) that the same body would have produced had that instance run alone as serial C code.",
  "every program built from those statements, every gang width, every entry mask, every initial variable contents",
  "the masked code depends on the joint divergence pattern of all lanes; tests sample a handful of programs and divergence patterns",
  ["src/ctx.cpp: FunctionEmitContext::{StartVaryingIf,EndIf,StartLoop,EndLoop,Break,Continue,CurrentLanesReturned,RestoreContinuedLanes,ClearBreakLanes}","src/stmt.cpp: IfStmt::EmitCode, DoStmt::EmitCode, ForStmt::EmitCode, ReturnStmt::EmitCode","docs/ispc.rst 2260-2445"])
p("C02","Inactive program instances have no side effects",
  "A program instance that is off when a statement is reached (because of the entry mask or of enclosing varying control flow) never has any of its variables modified by that statement, however the gang's code is laid out (straight-line predicated, branched, or coherent).",
  "every statement, every gang width, every mask",
  "needs all masks and all nesting shapes",
  ["src/ctx.cpp: StoreInst/maskedStore, SetInternalMaskAnd, SetInternalMaskAndNot","src/stmt.cpp: IfStmt::emitMaskedTrueAndFalse"])
p("C03","The gang terminates exactly when all active lanes' serial runs terminate",
  "Execution of a varying-control-flow function body terminates if the serial run of every active instance terminates, and if the gang terminates then so does every active instance's serial run.",
  "every program, mask and initial state",
  "termination of loops under divergence cannot be settled by finitely many runs",
  ["src/stmt.cpp: ForStmt::EmitCode, DoStmt::EmitCode","src/ctx.cpp: jumpIfAllLoopLanesAreDone, BranchIfMaskAny"])
p("C04","Coherent constructs mean the same as the plain ones",
  "Replacing if/for/while/do by cif/cfor/cwhile/cdo (in any subset of places) never changes the final per-instance values.",
  "every program, every choice of coherent flags, every mask and state",
  "the coherent versions emit different code per mask pattern",
  ["src/stmt.cpp: IfStmt::emitMaskAllOn, emitMaskMixed; ForStmt::EmitCode doCoherentCheck; DoStmt::EmitCode"])
p("C05","Maximal convergence after control flow",
  "After a varying if, loop or switch, the execution mask is again the mask that held before it, minus exactly the instances that have returned, or (inside a loop) executed break or continue.",
  "every statement, mask and state",
  "must hold for every divergence pattern",
  ["src/ctx.cpp: EndIf, EndLoop, restoreMaskGivenReturns, EndSwitch","docs/ispc.rst 2385-2413"])
p("C06","foreach visits every index exactly once",
  "foreach (i = a ... b) runs its body for each integer index in [a,b) exactly once, for no other index, and never runs anything if b <= a; with full or partial gangs at the end of the range.",
  "all a, b with no index arithmetic overflow, every gang width",
  "unbounded ranges and all widths",
  ["src/stmt.cpp: ForeachStmt::EmitCode, lUpdateVaryingCounter, lCalculateDeltaForVaryingCounter"])
p("C07","Multi-dimensional foreach and foreach_tiled cover the iteration domain exactly once",
  "foreach / foreach_tiled over n dimensions executes the body exactly once for each point of the Cartesian product of the ranges and for no other point.",
  "any number of dimensions, all bounds, all power-of-two gang widths",
  "the extras/partial code paths depend on every residue of every dimension",
  ["src/stmt.cpp: ForeachStmt::EmitCode, lGetSpans"])
p("C08","foreach never loses iterations at the ends of the int32 range",
  "foreach over any int32 bounds behaves as the exact integer loop even when the bounds are close to the limits of int32.",
  "all int32 bounds",
  "boundary arithmetic",
  ["src/stmt.cpp: ForeachStmt::EmitCode (nItems, NSW adds)"])
p("C09","foreach_active serialises the active lanes",
  "foreach_active (i) runs its body once for each program instance active on entry, in increasing lane order, with only that instance active and i equal to its index; the mask is restored afterwards.",
  "every mask and width",
  "all masks",
  ["src/stmt.cpp: ForeachActiveStmt::EmitCode"])
p("C10","foreach_unique partitions the active lanes by value",
  "foreach_unique (v in e) runs its body once per distinct value of e among the active lanes; each iteration's mask is exactly the active lanes whose e equals v; every active lane takes part in exactly one iteration.",
  "every mask, width and value vector",
  "all value/mask combinations, including NaN",
  ["src/stmt.cpp: ForeachUniqueStmt::EmitCode"])
p("C11","Varying switch behaves like C switch for each lane",
  "A switch on a varying value, with arbitrary case order, default position, fall-through and break, leaves each active instance with the values a serial C switch would give it.",
  "every switch body, mask and switch value vector",
  "exponentially many label/mask combinations",
  ["src/ctx.cpp: StartSwitch, EmitCaseLabel, EmitDefaultLabel, SwitchInst, Break","src/stmt.cpp: SwitchStmt::EmitCode"])
p("C12","A break statement only affects the lanes that execute it",
  "In a varying loop, executing break removes from the loop only the program instances that reach the break; instances that executed continue earlier in the same iteration go on to the next iteration.",
  "every loop body",
  "needs a particular statement order and divergence",
  ["src/ctx.cpp: FunctionEmitContext::Break, ifsInCFAllUniform"])
p("C13","Divergence-free execution of unsafe code",
  "Statements that are unsafe with an all-off mask (function calls, memory access through uniform pointers, atomics, ...) are not predicated: they are only reached when some program instance is active.",
  "every program accepted by the predication heuristic",
  "heuristic depends on recursive AST walk and cost estimate",
  ["src/ast.cpp: lCheckAllOffSafety, SafeToRunWithMaskAllOff, EstimateCost","src/stmt.cpp: IfStmt::emitVaryingIf"])
p("C14","Short-circuit operators evaluate the right operand only where needed",
  "For varying a && b, a || b and c ? x : y, each active instance gets the C result, and side effects of the second operand happen exactly for the instances for which C would evaluate it.",
  "all operand values, masks, both short-circuit and non-short-circuit code paths",
  "two emission strategies and all masks",
  ["src/expr.cpp: lEmitLogicalOp, SelectExpr::GetValue"])
p("C15","Reductions combine exactly the active lanes",
  "reduce_add/min/max/any/all/none/popcnt return the fold of the operation over the values of the active instances only; inactive lanes never contribute.",
  "all widths, masks and values",
  "all masks and widths",
  ["stdlib/stdlib.ispc: reduce_add, reduce_min, reduce_max, any, all, none, popcnt","builtins/generic.ispc: __reduce_*"])
p("C16","Exclusive scans",
  "exclusive_scan_add/and/or gives each active instance the fold over the active instances with smaller index.",
  "all widths, masks and values",
  "all masks and widths",
  ["stdlib/stdlib.ispc: exclusive_scan_add/and/or","builtins/generic.ispc: __exclusive_scan_*"])
p("C17","Lane permutations",
  "broadcast, rotate, shift, shuffle (one and two sources) return for each lane the documented source lane's value; rotate works for any offset, shift gives 0 outside the gang, and the two implementations of rotate/shift agree wherever both are defined.",
  "all widths (powers of two), all offsets, all values",
  "offsets are arbitrary 32-bit integers",
  ["stdlib/stdlib.ispc: rotate, shift, shuffle, broadcast, __shift_via_shuffle, __rotate_via_shuffle","builtins/generic.ispc: __rotate_*, __shift_*, __shuffle_*","builtins/util.m4: shuffle1, shuffle2","builtins/target-avx2-i32x16.ll, target-avx512skx-x64.ll and the like: __shuffle_*, __shuffle2_*"])
p("C18","packed_store_active / packed_load_active",
  "packed_store_active writes the active lanes' values contiguously in lane order and returns their number, touching no other memory (packed_store_active2 may write one gang's width); packed_load_active reads them back so that store followed by load is the identity on active lanes and leaves inactive lanes unchanged.",
  "all masks, widths, memories",
  "all masks",
  ["stdlib/stdlib.ispc: packed_store_active, packed_load_active","builtins/generic.ispc: __packed_store_active*, __packed_load_active","builtins/util.m4: packed_load_and_store","builtins/target-avx2-i32x8.ll: __packed_store_active2i32, __packed_store_active2i64"])
p("C19","Global atomics on a varying value are equivalent to some serial order",
  "atomic_{add,subtract,and,or,xor,min,max,swap,compare_exchange}_global with a varying value leave memory, and return to each active lane, exactly what issuing the active lanes' operations one after another in some order would, with inactive lanes contributing nothing.",
  "all widths, masks, values, initial memory",
  "the implementation reduces first and issues a single hardware atomic",
  ["stdlib/stdlib.ispc: DEFINE_ATOMIC_OP, DEFINE_ATOMIC_SWAP, DEFINE_ATOMIC_MINMAX_OP","builtins/generic.ispc: __atomic_*_global","builtins/util.m4: global_atomic_associative"])
p("C20","Local atomics return the old value and apply the named operation",
  "atomic_*_local on a varying value applies the operation for each active lane in lane order; every lane receives the value before its own update; atomic_swap_local stores the new value.",
  "all types, masks, values",
  "all lanes patterns and types",
  ["stdlib/stdlib.ispc: LOCAL_ATOMIC, __swap, LOCAL_CMPXCHG"])
p("C21","Saturating arithmetic is exact clamping",
  "saturating_add/sub/mul/div for signed and unsigned 8/16/32/64-bit types return the mathematical result clamped to the type's range.",
  "all operand pairs of every width",
  "2^128 operand pairs for 64-bit types",
  ["stdlib/stdlib.ispc: saturating_add, saturating_sub, saturating_mul, saturating_div"])
p("C22","avg_up / avg_down never overflow",
  "avg_up(a,b) = floor((a+b+1)/2) and avg_down(a,b) = floor((a+b)/2) computed without overflow for (u)int8 and (u)int16.",
  "all operands",
  "all operand pairs of four types",
  ["stdlib/stdlib.ispc: avg_up, avg_down","builtins/generic.ispc: __avg_up_*, __avg_down_*"])
p("C23","half/float conversion in software",
  "half_to_float is exact for every finite half; float_to_half of half_to_float is the identity on every non-NaN half bit pattern; float_to_half maps NaN to NaN and out-of-range values to infinity; the uniform and varying versions agree.",
  "all 2^16 halves and all 2^32 floats",
  "all bit patterns",
  ["stdlib/stdlib.ispc: half_to_float, float_to_half, half_to_float_fast, float_to_half_fast"])
p("C24","memmove handles overlap",
  "memmove(dst, src, n) leaves dst[0..n) equal to the original src[0..n) for any overlap and changes nothing else; memcpy likewise for disjoint ranges; memset fills exactly n bytes.",
  "all addresses, sizes, memories",
  "all overlap distances",
  ["stdlib/stdlib.ispc: memcpy, memmove, memset"])
p("C25","Integer division only for active lanes",
  "Varying integer division/remainder on targets without vector division performs the scalar division only for active lanes, so a zero divisor (or INT_MIN/-1) in an inactive lane never traps, and active lanes get the C quotient.",
  "all masks and operands",
  "all masks",
  ["builtins/generic.ispc: __idiv_t, __irem_t"])
p("C26","AoS/SoA conversions are inverse transposes",
  "aos_to_soa{2,3,4} reads element k of structure i into lane i of vector k; soa_to_aos is its inverse; both touch exactly width*n elements.",
  "all widths, array contents",
  "all widths and contents",
  ["builtins/generic.ispc: __aos_to_soa*, __soa_to_aos*","stdlib/stdlib.ispc: aos_to_soa*, soa_to_aos*"])
p("C27","Dot-product intrinsics fallbacks",
  "dot4add_* / dot2add_* (with and without saturation) return acc plus the sum of products of the packed signed/unsigned elements, wrapped or saturated to 32 bits as documented.",
  "all packed operands and accumulators",
  "2^96 operand triples",
  ["stdlib/stdlib.ispc: dot4add_*, dot2add_*"])
p("C28","sRGB8 conversion is in range, in bounds and monotone",
  "float_to_srgb8 never indexes outside its table, returns a value in 0..255 for every float including NaN and infinities, and is monotone in its argument; srgb8_to_float is increasing and round-trips.",
  "all 2^32 floats",
  "all bit patterns",
  ["stdlib/stdlib.ispc: float_to_srgb8, srgb8_to_float"])
p("C29","frandom is in [0,1) and the generator does not degenerate",
  "frandom returns a value in [0,1) for every generator state, and every seed accepted by seed_rng leads to a non-degenerate generator state.",
  "all generator states, all 32-bit seeds",
  "2^128 states",
  ["stdlib/stdlib.ispc: random, frandom, seed_rng"])
p("C30","Bit counting builtins",
  "count_leading_zeros, count_trailing_zeros and popcnt return the mathematical counts for every value, for uniform and varying arguments, for every lane.",
  "all values",
  "2^64 values",
  ["stdlib/stdlib.ispc: count_leading_zeros, count_trailing_zeros, popcnt","builtins/generic.ispc"])
p("C31","Constant folding agrees with run-time evaluation",
  "Folding an operator on constant operands at compile time yields the value the generated code would compute at run time, for all types; operations that would be undefined (division by zero, oversized shift) are not folded into a wrong value.",
  "all operators, types, operand values",
  "all operand values",
  ["src/expr.cpp: lConstFoldBinaryArithOp, lConstFoldBinaryIntOp, UnaryExpr::Optimize, BinaryExpr::Optimize"])
p("C32","Common type of two operands",
  "The common type chosen for a binary operator is symmetric in the operands (apart from diagnostics), is varying iff either operand is varying, and has at least the width of both operands.",
  "all pairs of atomic types",
  "all type pairs, and closure under nesting",
  ["src/type.cpp: Type::MoreGeneralType"])
p("C33","Name mangling distinguishes overloads",
  "Two overloaded functions with different parameter types never receive the same mangled symbol.",
  "all pairs of parameter type lists (unbounded nesting)",
  "unbounded type structure",
  ["src/type.cpp: Mangle methods","src/func.cpp / src/sym.cpp: mangling"])
p("C34","Overload resolution does not depend on declaration order",
  "The overload selected for a call, or the report of ambiguity, is the same for every order in which the candidates were declared.",
  "all candidate lists and argument lists",
  "all permutations",
  ["src/expr.cpp: FunctionSymbolExpr::ResolveOverloads, computeOverloadCost"])
p("C35","Gather coalescing preserves values",
  "Replacing a set of gathers with known constant offsets by wider vector/scalar loads plus shuffles yields exactly the values the separate gathers would have read.",
  "all offset sets, widths and memories",
  "all offset patterns",
  ["src/opt/GatherCoalescePass.cpp"])
p("C36","Masked memory operation simplifications are sound",
  "Masked loads/stores/blends with statically known masks (all on, all off, or mixed) are replaced by code with the same effect on memory and results.",
  "all masks and memories",
  "all masks",
  ["src/opt/ReplaceMaskedMemOps.cpp","src/opt/IntrinsicsOptPass.cpp","src/llvmutil.cpp: lGetMaskStatus"])
p("C37","Gather/scatter address decomposition",
  "Rewriting a vector of pointers as common base plus (scale times) varying offset plus constant offset never changes any lane's address.",
  "all pointer expressions",
  "all expression trees",
  ["src/opt/ImproveMemoryOps.cpp: lGetBasePtrAndOffsets, lExtractConstantOffset, lExtract248Scale, lExtractOffsetVector248Scale, lOffsets32BitSafe, lGSToGSBaseOffsets, lGSBaseOffsetsGetMoreConst","docs/ispc.rst: 32 or 64-bit addressing"])
p("C38","launch/sync runs every task exactly once and sync waits for all",
  "With the bundled pthreads task system, each task of each launch runs exactly once, with the right task index, and sync returns only after all tasks of its group have finished, for any number of worker threads and any interleaving, including nested launches.",
  "all schedules, task counts and thread counts",
  "all interleavings",
  ["examples/common/tasksys.cpp: TaskGroup::Launch, TaskGroup::Sync, lTaskEntry, ISPCLaunch, ISPCSync"])
p("C39","Task argument memory is disjoint, aligned and stable",
  "ISPCAlloc returns blocks that are aligned as requested, lie inside buffers owned by the task group, and never overlap one another until sync.",
  "all request sequences",
  "all sequences of sizes and alignments",
  ["examples/common/tasksys.cpp: TaskGroupBase::AllocMemory"])
p("C40","ispcrt reference counting never leaks or double-frees",
  "For any sequence of construct/copy/move/assign/destroy operations on runtime handles, an object is destroyed exactly when its last owner goes away, and never before.",
  "all operation sequences",
  "unbounded histories",
  ["ispcrt/detail/IntrusivePtr.h: RefCounted, IntrusivePtr","ispcrt/ispcrt.cpp: ispcrtRetain, ispcrtRelease, ispcrtUseCount","ispcrt/ispcrt.hpp: GenericObject","ispcrt/detail/cpu/CPUDevice.cpp: Module, Kernel, CommandListImpl, CommandQueueImpl, TaskQueue"])
p("C41","Lexical scoping of names",
  "A variable lookup finds the innermost enclosing declaration of that name; leaving a scope restores exactly the previous bindings; redeclaration is rejected only within the same scope.",
  "all nesting and declaration sequences",
  "unbounded nesting",
  ["src/sym.cpp: SymbolTable"])
p("C42","Multi-target dispatch picks the best supported variant",
  "The dispatch function of a multi-target build calls a variant whose instruction set the host supports, and no compiled variant with a better supported ISA exists; if none is supported it aborts.",
  "all sets of compiled targets and all host capabilities",
  "all subsets",
  ["src/module.cpp: dispatch creation","builtins/dispatch.c","src/isa.h"])
p("C43","Target and architecture names round-trip",
  "Parsing the printed name of every target/arch/OS/… enumerator gives it back, and no two enumerators share a name.",
  "all enumerators (finite)",
  "aliases and long tables",
  ["src/target_enums.cpp"])
p("C44","Integer literals",
  "A decimal, hexadecimal or binary literal with any suffix denotes its mathematical value, with the smallest admissible type; literals too large are rejected rather than wrapped.",
  "all digit strings",
  "unbounded strings",
  ["src/lex.ll: lParseInteger, lParseBinary","src/parse.yy: lexer token types"])
p("C45","Calls through varying function pointers",
  "A call through a varying function pointer calls each distinct pointer among the active lanes exactly once, with exactly the lanes holding it active, and collects each lane's result.",
  "all masks and pointer vectors",
  "all pointer/mask combinations",
  ["src/ctx.cpp: FunctionEmitContext::CallInst (varying path)"])
p("C46","float_to_half gives the same half on every target",
  "For every finite float in range, the half that float_to_half returns is the one the hardware conversion returns, so a program's results do not depend on whether the target has native half conversions.",
  "all 2^32 floats",
  "2^32 inputs; the implementations differ only on ties",
  ["stdlib/stdlib.ispc: float_to_half","builtins/target-avx2-i32x8.ll: __float_to_half_uniform"])

p("C47","Overflow in a lane that is off has no effect",
  "The values held by lanes that are not executing never matter: whatever they are, and even if arithmetic on them overflows a signed type, evaluating an expression is defined whenever it is defined for the executing instances, and gives those instances the same values, assignments and calls.",
  "all expressions, masks, and contents of the lanes that are off",
  "Lanes that are off hold leftovers of earlier control flow; tests start from zeroed or repeated inputs and see neither the overflow nor the optimiser's use of it.",
  ["src/ctx.cpp: FunctionEmitContext::BinaryOperator (nsw)","src/args.cpp: --wrap-signed-int","src/expr.cpp: lEmitLogicalOp, SelectExpr::GetValue"])

p("C48","Type equality is an equivalence, and equal function types link",
  "Whether two types are the same does not depend on the order in which they are compared, nor on a third type equal to both, and a type is the same as itself. Two declarations of a function, in the same or in different files, whose types are the same refer to the same linker symbol.",
  "all types of any nesting depth, with const considered or ignored",
  "Types nest without bound (pointers to functions taking arrays of structs ...); tests compare a handful.",
  ["src/type.cpp: lCheckTypeEquality, Type::Equal, Type::EqualIgnoringConst","src/type.cpp: FunctionType::Mangle, FunctionType::GetFunctionMangledName"])
p("C49","No implicit conversion turns a varying value into a uniform one",
  "An expression of varying type is never accepted where a uniform value is needed, neither by an implicit conversion nor as an argument of a function: values that differ between program instances are never silently reduced to one of them.",
  "all source and destination types, all functions and arguments",
  "The conversion rules are a large nested case analysis over pairs of recursive types; tests try a few pairs.",
  ["src/expr.cpp: lDoTypeConv, CanConvertTypes","src/expr.cpp: FunctionSymbolExpr::computeOverloadCost"])

p("C50","Suggestions for misspelt names",
  "When an unknown name is used, the names the compiler suggests are exactly the declared variables and functions that are nearest to it by edit distance (insertions, deletions, substitutions), and only if the distance is at most two; the distance the compiler computes is the least number of edits.",
  "all symbol tables, all names, all command line option lists",
  "The edit distance is a minimum over all edit scripts; tests compare a few words.",
  ["src/sym.cpp: ClosestVariableOrFunctionMatch","src/util.cpp: StringEditDistance, MatchStrings"])
p("C51","String literals",
  "A string literal denotes the characters written in it, with each documented escape sequence standing for its character.",
  "all texts of string literals",
  "The literals are unboundedly long and escapes can meet in any order; tests use a few.",
  ["src/lex.ll: lEscapeChar, lStringConst"])
p("C52","Comments and pragmas are skipped and every input is scanned to its end",
  "A C comment ends at the first closing mark after its opening, a C++ comment at the end of its line, the current line number advances by the number of line ends passed, and scanning ends on every input.",
  "all input texts",
  "The text inside a comment is arbitrary; tests use a few.",
  ["src/lex.ll: lCComment, lCppComment, lConsumePragma"])

p("C53","Hexadecimal floating-point literals are exact",
  "A hexadecimal floating-point literal denotes exactly the number written, whenever that number is a double.",
  "all leading digits, fraction digits and exponents",
  "The conversion accumulates in floating point; exactness for all digit strings needs a proof about rounding.",
  ["src/lex.ll: lParseHexFloat, ipow2"])

p("C54","A function that launched tasks waits for them before it returns",
  "Whenever a function returns to its caller, by any return statement or at its end, all tasks it has launched have finished: an implicit sync is executed on every path on which a launch was executed.",
  "all function bodies, all paths through them",
  "Paths through loops are unbounded; tests run a few.",
  ["src/ctx.cpp: FunctionEmitContext::ReturnInst, LaunchInst, CurrentLanesReturned","src/func.cpp: Function::emitCode"])
p("C55","threadIndex is in range and unique among running tasks",
  "In every task threadIndex is at least 0 and less than threadCount, and two tasks that run at the same time have different values of threadIndex.",
  "all schedules, task counts and thread counts",
  "all interleavings",
  ["examples/common/tasksys.cpp: lTaskEntry, TaskGroup::Sync, TasksInit"])

p("C56","Variants of a multi-target compilation never overwrite each other",
"Whenever a list of targets is accepted for one compilation, the variants are written to pairwise different files, in the directory of the file asked for, and none of them to that file itself, which holds the dispatch code.",
"all output file names and all lists of targets, of any length","every combination of targets and every file name",
["src/module.cpp: lGetMangledFileName, lCheckAndFillISAIndices, OutFileNameTarget","src/ispc.cpp: Target::ISAToString, Target::TargetToISA"])
p("C57","A target is what its name says, and so is the library linked into it",
"A target string [ISA]-i[mask size]x[gang size] or [ISA]-x[gang size] that is accepted selects that instruction set, mask size and gang size. The built-in library functions linked into the program come from libraries of the same gang size and mask size whose instruction set the target includes, and linking resolves every library function the program can refer to.",
"all strings, all programs, all contents of the libraries","programs and library contents are unbounded",
["src/target_enums.cpp: ParseISPCTarget","src/ispc.cpp: Target::Target","src/builtins.cpp: targetParentMap, lLinkTargetBuiltins, lAddBitcodeToModule","docs/ispc.rst: Selecting The Compilation Target"])
p("C58","An index the compiler calls uniform or linear is",
"When the compiler finds that a varying index has the same value in all lanes, it has, and when it finds that lane i is lane 0 plus i times a stride, it is, at every moment of every execution, including indices that are carried round loops.",
"all index expressions, all loops and numbers of iterations, all values of the variables","expressions and executions are unbounded",
["src/llvmutil.cpp: lVectorValuesAllEqual, lVectorShiftRightAllEqual, lAllDivBaseEqual, lIsExactMultiple, lVectorIsLinear, lValuesAreEqual, LLVMFlattenInsertChain"])
p("C59","A gather or scatter that becomes a load or store accesses the same memory",
"When the compiler replaces a gather by one scalar load, or a gather or scatter by a (masked) vector load or store, also in reverse order, every lane that is on reads or writes the same address as before, and no other memory is touched.",
"all base pointers, offsets, scales, masks and memories","all offset expressions and memories",
["src/opt/ImproveMemoryOps.cpp: lGSToLoadStore","builtins/util.m4: gen_gather"])
p("C60","Arrays of soa<> structures behave as ordinary arrays",
"The code for an array of soa<w> structures is that for an array of structures: reading and assigning elements, members and elements of members gives the values it would with an ordinary array, pointers to elements can be moved and subtracted, varying accesses reach the elements of the instances that are on, each value is where the documented layout puts it, and no other memory is touched.",
"all structure types, widths, array sizes, indices, pointer steps, sequences of reads and assignments, masks",
"types and programs are unbounded; the address of an element depends on the exact splitting of every index",
["src/ctx.cpp: lComputeSliceIndex, GetElementPtrInst, AddElementOffset, ApplySliceOffset, loadUniformFromSOA, storeUniformToSOA, gather, scatter","src/expr.cpp: IndexExpr::GetLValue, IndexExpr::GetLValueType, StructMemberExpr::GetLValueType, lEmitBinaryPointerArith","src/type.cpp: StructType::checkIfCanBeSOA, PointerType::GetAsSlice, GetAsFrozenSlice","docs/ispc.rst: Structure of Arrays Types"])
p("C61","print writes the format with the values in place of the percent signs",
"The output of a print statement is its format string with each percent sign replaced by the text of the corresponding value: integers of every type in decimal, booleans as true or false, varying values as a list in brackets with the values of instances that are not executing in double parentheses. No memory outside the buffers is written, whatever the values; a format whose percent signs do not match the values is not accepted; splitting a print into several for the GPU does not change the output.",
"all formats, numbers and types of values, gang sizes, masks, and ways of writing numbers",
"output lengths depend on the values and the gang size; tests print a few short values",
["builtins/builtins-c-cpu.cpp: __do_print, ArgWriter::uniform2Str, varying2Str, writeOffLane","builtins/builtins-c-common.hpp: GetFormatedStr, CopyPlainText, CopyFullText, Arg2Str","src/stmt.cpp: lProcessPrintArgType, lEncodeType, checkFormatString, splitValidFormat, getPrintSlices, PrintLZFormatStrBuilder, PrintArgsBuilder","docs/ispc.rst: Output Functions"])
p("C62","assert stops the program exactly if an executing instance violates it",
"An assertion on a varying condition stops the program with its message if and only if the condition is false for at least one executing program instance.",
"all conditions and masks, all gang sizes and mask representations",
"all combinations of conditions and masks on all targets",
["builtins/util.m4: __do_assert_varying, __do_assert_uniform","builtins/generic.ispc: __do_assert_varying, __movmsk, __any","builtins/util-xe.m4: __do_assert_varying","src/stmt.cpp: AssertStmt::EmitAssertCode","docs/ispc.rst: Assertions"])
p("C63","A conversion gives every instance the documented value",
"Converting between bool, integer and floating-point types gives in every lane the value C gives: integers keep their value modulo the size of the target, true becomes 1, a number becomes true if it is not zero, a floating-point number is truncated toward zero. Conversions from uniform to varying give every instance the uniform value, in structures, arrays and short vectors too; a pointer survives conversion to an integer of its size; enumerators have the values their declaration gives them.",
"all pairs of basic types, all values (also NaN, infinities and poison), gang sizes, mask representations, vector lengths, structure types of any nesting, enumerator lists of any length",
"values are unbounded in number, and a value's representation depends on the mask size, on variability and on whether it is in memory",
["src/expr.cpp: lTypeConvAtomic, lUniformValueToVarying, TypeCastExpr::GetValue","src/ctx.cpp: SwitchBoolSize, SwitchBoolToMaskType, SwitchBoolToStorageType, SmearUniform, BroadcastValue, PtrToIntInst, IntToPtrInst","src/parse.yy: lFinalizeEnumeratorSymbols","docs/ispc.rst: Type Conversions, Enumeration Types"])
p("C64","A variable starts with the value of its initializer",
"A variable declared with an initializer starts with the value the initializer describes: an expression is converted to the type of the variable, the elements of an initializer list go to the elements of the array, structure, vector or varying value in order, at every level of nesting, elements left out are zero, and every expression is evaluated exactly once. Lists that are too long, and values that do not convert, are rejected. Array dimensions that are left out are those of the initializer.",
"all types and initializers of any nesting and size, constant or not, gang sizes, vector paddings",
"types and initializers nest without bound, and constant, partly constant and non-constant lists take different paths",
["src/expr.cpp: InitSymbol, lGetExprListConstant, ExprList::HasAtomicInitializerList, lGetConstExprConstant","src/type.cpp: ArrayType::SizeUnsizedArrays, VectorType::getVectorMemoryCount","src/stmt.cpp: DeclStmt::EmitCode","docs/ispc.rst: Declarations and Initializers"])
p("C65","C code and ispc code agree on the memory of exported types",
"The structures and short vectors a generated header declares have, for a C compiler, the size, the alignment and the offsets of members, array elements and lanes they have in compiled ispc code; members of a type are inside it and do not overlap.",
"all types of any nesting, uniform, varying or soa, all gang sizes, pointer sizes, element sizes of targets and alignments of scalars",
"types nest without bound, and the layout depends on gang size, padding and alignment of the target",
["src/header.cpp: lEmitStructDecl, lEmitVectorTypedefs","src/type.cpp: AtomicType::GetDeclaration, EnumType::GetDeclaration, PointerType::GetDeclaration, ArrayType::GetDeclaration, VectorType::GetDeclaration, StructType::GetDeclaration, VectorType::getVectorMemoryCount, StructType::RegisterInStructTypeMap","docs/ispc.rst: Data Layout"])
p("C66","A generated header defines every type before it is used",
"A generated header declares every structure that occurs in the type of an exported function, at any depth, or that is exported explicitly, exactly once, after every structure, enumeration and short vector its members are made of.",
"all lists of exported functions and explicitly exported types, structures of any nesting",
"sets of types are unbounded, the order depends on which functions mention which types first",
["src/header.cpp: lEmitStructDecl, lEmitStructDecls, lGetElementStructType, lAddTypeIfNew, lGetExportedTypes, lGetExportedParamTypes, Module::writeHeader, Module::writeDispatchHeader","src/type.cpp: StructType::GetCStructName","docs/ispc.rst: Interoperability Overview"])
p("C67","Shared memory views never overlap and are never lost",
"With the memory pool of the GPU runtime, the memory of two shared views that exist at the same time has no byte in common and lies inside memory obtained from the driver, a view keeps its pointer until it is released, whatever is created and released in between, no call fails unless the driver refuses memory, and when all views are released everything is returned to the driver.",
"all sequences of creating, accessing, querying and releasing views of any sizes, all limits of chunk sizes, all drivers that hand out unused memory",
"which chunk a view gets depends on the whole history of allocations and releases",
["ispcrt/detail/gpu/GPUDevice.cpp: round_up_pow2, ChunkedPool, ChunkedPool::Bulk, MemoryView::allocate, MemoryView::~MemoryView","ispcrt/ispcrt.cpp: ispcrtNewMemoryView, ispcrtSharedPtr, ispcrtSize","docs/ispc_for_xe.rst: ISPC Run Time"])
p("C68","Commands of a GPU task queue happen in the promised order",
"Copies to the device finish before kernels launched later begin, kernels finish before later copies to the host begin, a barrier separates what was queued before it from what is queued after it, and sync returns only when everything is done and always can return. So when calls that touch the same data are ordered by these rules, the memory after sync is what the calls give one after the other. Launches fail only when more are queued than the documented limit, and a valid future belongs to finished work.",
"all sequences of copies, launches, barriers and syncs, all orders in which the device may begin and finish commands, all numbers of command lists and hardware queues, all kernels",
"the device chooses the schedule, and the order of commands depends on events and lists that were filled by earlier calls",
["ispcrt/detail/gpu/GPUDevice.cpp: TaskQueue, CommandListImpl, EventPool, TaskQueue::sync, TaskQueue::launch, TaskQueue::copyToDevice, TaskQueue::copyToHost, TaskQueue::copyMemoryView, TaskQueue::barrier","docs/ispc_for_xe.rst: ISPC Run Time (Task queue, Barrier)"])
p("C69","Calls of function templates run the instance the documentation describes",
"A call of a function template is accepted when some choice of template arguments gives its parameters exactly the types of the arguments, and that choice is used: T follows the variability of its argument as documented, becomes varying if any argument for it is varying, independently of their order, and explicitly given arguments are kept, a type without a variability being varying. Calls with the same template arguments run the same instance, whose types are the template's with the arguments put in; it runs the specialization for these arguments if there is one and the template's own statements otherwise, and a second or late definition of a specialization is rejected.",
"all templates with any number of type and non-type parameters and of function parameters, all argument types of any nesting, all sequences of calls, specializations and explicit instantiations",
"types nest without bound and the instances depend on the whole sequence of declarations and calls",
["src/expr.cpp: lDeduceParam, lCheckTypeParamsDeductionCompatibility, lDeduceVectorParams, getCandidateTemplateFunctions, normalizeTemplateArgs","src/func.cpp: TemplateArg, TemplateInstantiation, FunctionTemplate::LookupInstantiation, AddInstantiation, AddSpecialization, GenerateIR","src/type.cpp: ResolveDependence, ResolveUnboundVariability, ReferenceType::createWithBaseType, VectorType::GetCountString, lCheckTypeEquality","src/module.cpp: MatchFunctionTemplate, AddFunctionTemplateInstantiation, AddFunctionTemplateSpecializationDefinition, AddFunctionTemplateSpecializationDeclaration","docs/ispc.rst: Function Templates"])
p("C70","round, floor, ceil and trunc give the documented integer on targets without an instruction for them",
"round gives the nearest integer, the even one of two equally near, floor the largest integer not above its argument, ceil the smallest not below it and trunc the next one towards zero, with the sign of the argument; infinities and NaN stay what they are. This holds where the result is computed by adding and subtracting a large constant or by shifting the fraction: float on sse2 and wasm, double on Xe, float16 without hardware support.",
"all representable values of the type",
"there are up to 2^64 values, and the sums are rounded differently in every binade",
["stdlib/stdlib.ispc: round, floor, ceil, trunc","builtins/target-sse2-common.ll: __round_uniform_float, __floor_uniform_float, __ceil_uniform_float","builtins/target-sse2-i32x4.ll, target-wasm-i32x4.ll: __round_varying_float, __floor_varying_float, __ceil_varying_float","builtins/target-xe.ll, util-xe.m4: __round_varying_double, __floor_uniform_double, __ceil_uniform_double, xe_trunc_double","builtins/util.m4: halfMathRoundPreSSE4","docs/ispc.rst: Basic Math Functions"])
p("C71","ldexp, frexp, abs, signbits, isnan, isinf and isfinite do what they say",
"ldexp multiplies by the given power of two; frexp splits a number into a fraction between 1/2 and 1 and a power of two, and ldexp puts it together again; abs clears the sign and changes nothing else; signbits gives the sign bit; isnan, isinf and isfinite recognize exactly the values they are named after; the integer abs gives the absolute value.",
"all values and all exponents, for float16, float and double and all integer widths",
"the value space is too large, and exponents wrap around in the bits of the representation",
["stdlib/stdlib.ispc: ldexp, frexp, abs, signbits, isnan, isinf, isfinite","docs/ispc.rst: Basic Math Functions, Transcendental Functions"])
p("C72","fmod is the C library's fmod",
"fmod(x, y) is x minus the whole multiple of y that leaves a remainder smaller than y with the sign of x; it is NaN if x is infinite, y is zero or one of them is NaN, and x if only y is infinite or x is zero. The result in one lane depends on that lane's arguments only.",
"all pairs of values, for float16, float and double, all reciprocals the target may compute and all combinations of arguments in the lanes of a gang",
"pairs of values are too many, and rounding of the quotient decides the result only for some of them",
["stdlib/stdlib.ispc: fmod","docs/ispc.rst: Basic Math Functions (fmod)"])
p("C73","min, max and clamp choose the right argument on every target",
"min and max return one of their arguments that is not above, respectively not below, the other; clamp returns a value between the bounds, the given one if it lies there. Infinities are compared like other numbers. The uniform and the varying version give the same result for the same arguments.",
"all pairs of values, all targets whose definitions are written out in the builtins, float16, float and double",
"pairs of values are too many, and every target has its own sequence of instructions",
["stdlib/stdlib.ispc: min, max, clamp","builtins/target-sse2-common.ll, target-sse4-common.ll, target-avx-utils.ll, target-avx512-utils.ll, target-avx512skx-x16-nozmm.ll, target-avx2-i16x16.ll, target-wasm-i32x4.ll, target-xe.ll: __min_uniform_float, __max_varying_float, __min_varying_double, __max_uniform_double","docs/ispc.rst: Basic Math Functions (min, max, clamp)"])
p("C74","A declaration declares what it says",
"The specifiers and the declarator of a declaration give the variable, function, parameter, typedef or structure member the type that C's rule (a declaration mirrors the use) and the documented defaults give: everything is varying unless it says otherwise, what a pointer points to is uniform, a parameter that is an array is a uniform pointer to its elements. The specifiers can be written in any order, contradicting ones are rejected, and so are arrays of void and of references, references to references, functions that return functions and variables of type void. The name of a typedef means what its declaration means. Enumerators without a value count up from the one before.",
"all declarations with any number of specifiers, declarators of any depth with any parameters, after any sequence of typedefs; all lists of enumerators",
"declarators and types nest without bound and typedefs refer to earlier ones",
["src/decl.cpp: DeclSpecs, DeclSpecs::GetBaseType, lApplyTypeQualifiers, Declarator::InitFromDeclSpecs, Declarator::InitFromType, Declaration::GetVariableDeclarations, DeclareFunctions, GetStructTypesNamesPositions","src/parse.yy: declaration_specifiers, specifier_qualifier_list, declarator, direct_declarator, pointer, abstract_declarator, direct_abstract_declarator, parameter_declaration, lFinalizeEnumeratorSymbols","src/type.cpp: GetAsUniformType, GetAsVaryingType, GetAsUnboundVariabilityType, GetAsConstType, ResolveUnboundVariability","docs/ispc.rst: Types, Pointer Types, Enumeration Types"])
p("C75","A program that compiles without a warning does not change a const object",
"If the compiler accepts a program without the warning about discarded const qualifiers, and the program contains no cast, then no variable, array element or structure member that is const by its own type or that of an array or structure around it ever has another value than the one it was initialised with, whatever pointers and references to it are made, stored, passed and returned. Adding const to what a pointer points to never needs a cast.",
"all programs with any structures, globals, functions, pointers of any depth, references, loops and recursive calls; every point of every execution",
"programs, types and executions are unbounded, and a write may be many assignments and calls away from the conversion that allowed it",
["src/expr.cpp: lDoTypeConv, TypeConvertExpr, AssignExpr::TypeCheck, lCheckForConstStructMember, UnaryExpr::TypeCheck, IndexExpr, StructMemberExpr, AddressOfExpr, PtrDerefExpr, ReferenceExpr, SelectExpr::TypeCheck, FunctionCallExpr, InitSymbol","src/type.cpp: Type::GetAsConstType, Type::MoreGeneralType, lCheckTypeEquality, StructType::GetElementType","src/stmt.cpp: DeclStmt, lCheckInit, ReturnStmt"])
p("C76","Replacing averages and constant shifts by target instructions does not change results",
"When the optimizer replaces arithmetic on 8- and 16-bit vectors by the averaging instructions of the target, and shift() by a constant number of lanes by a shuffle, every lane keeps the value the program computes without the replacement; shift() by a constant gives the value of the lane that far away, or zero outside the gang.",
"all expressions of any size on all targets, all values, all lanes, all constants",
"the replaced expressions may stand anywhere in expressions of any size, and all operand values have to agree",
["src/opt/PeepholePass.cpp: UDiv2_match, SDiv2_match, lMatchAvgUpUInt8, lMatchAvgUpUInt16, lMatchAvgUpInt8, lMatchAvgUpInt16, lMatchAvgDown*, lGetBinaryIntrinsic, matchAndReplace","src/opt/ReplaceStdlibShiftPass.cpp: replaceStdlibShiftBuiltin","builtins/target-sse4-i8x16.ll, target-sse4-i16x8.ll: __avg_up_uint8, __avg_up_uint16","builtins/util.m4: define_avg_*","stdlib/stdlib.ispc: shift, __shift_via_shuffle"])
p("C77",
"Arguments in response files and ISPC_ARGS are taken as written",
"The arguments the compiler works with are those of the command line, each argument @filename of a readable file replaced by the arguments in the file (also inside files), followed by those in ISPC_ARGS; a text is split at white-space; every list of arguments can be written in a file or in ISPC_ARGS.",
"all command lines, all contents of ISPC_ARGS, all file systems with files naming files to any depth",
"texts, argument lists and the nesting of files are unbounded",
["src/args.cpp: ArgFactory::GetNextArg, FileArgFactory, StringArgFactory, lAddArgsFromFactory, lAddSingleArg, GetAllArgs"])
p("C78",
"The named elements of short vectors are those of the program instance's own vector",
"v.x, v.y, ... (also r, g, b, a and u, v) of a short vector, reached as a variable, a reference, a function result, through a pointer or an index, give each active program instance the named element of the vector it sees; several letters give the vector of the named elements in their order; an assignment to one element changes that element in the active lanes and nothing else; several letters cannot be assigned to; letters that name no element of the vector are errors.",
"all gang sizes, vector lengths, masks, memory contents, uniform and varying vectors, uniform and varying pointers, letter sequences of any length",
"gang sizes, addresses, masks and letter sequences are unbounded; the combinations of uniform and varying pointers and vectors take different code",
["src/expr.cpp: lIdentifierToVectorElement, VectorMemberExpr, MemberExpr::create, MemberExpr::GetValue, MemberExpr::GetLValue, lAddVaryingOffsetsIfNeeded, AssignExpr::GetValue, SizeOfExpr::GetValue", "src/ctx.cpp: AddElementOffset, LoadInst, gather, StoreInst"])
p("C79",
"All declarations of a global name fit together",
"In a file that compiles, all declarations of a global variable have the same type, it has at most one definition and starts with the value given there (zero if none), the value the compiler uses in its place is the one it starts with, it is visible to other files unless it is static, and it is in read-only memory only if it is const. A name is not both a variable and a function. Functions of one name and the same parameters are the same function, the names of exported and of extern \"C\" functions are not overloaded, a function has at most one body, which is what every call runs, tasks return nothing, and static functions are hidden from other files. Files that follow these rules compile.",
"all sequences of declarations and definitions of global variables and functions, with any types, storage classes, qualifiers and initializers, in any order",
"Tests declare a few names once or twice. The checks depend on the order of the declarations and on what the earlier ones left in the symbol table, and a wrong result shows only in another file or at link time.",
["src/module.cpp: Module::AddGlobalVariable, Module::AddFunctionDeclaration, Module::AddFunctionDefinition", "src/func.cpp: Function::GenerateIR", "src/parse.yy: lAddDeclaration, lAddFunctionParams", "src/sym.cpp: SymbolTable::LookupVariable, LookupFunction"])
p("C80",
"new gives every program instance its own memory and delete frees exactly that",
"new gives every executing program instance a block of the documented size, or a null pointer if there is no memory; the blocks are aligned and overlap no live block, also of other instances; instances that do not execute allocate nothing; an initializer is stored once in every new block. uniform new allocates one block for the gang. delete frees exactly the blocks of the executing instances; any subset of the instances can delete its own memory while the rest goes on using theirs, and deleting one block by two instances is an error.",
"all gang sizes, execution masks, counts, allocated types, heaps, and behaviours of the C library's allocation functions within their contract, on 32-bit and 64-bit, Unix and Windows, generic and other targets",
"Which instances run, which counts they have and where the C library puts blocks cannot be enumerated; sizes that overflow and failed allocations are not tested.",
["src/expr.cpp: NewExpr", "src/stmt.cpp: DeleteStmt", "builtins/util.m4: __new_uniform_64rt, __new_varying32_64rt, __new_varying64_64rt, __delete_varying_64rt", "builtins/generic.ispc: __new_varying64_64rt, posix_memalign", "docs/ispc.rst: Dynamic Memory Allocation"])
p("C81",
"Programs of the run time do the same on the CPU and on the GPU",
"A program that uses the ISPC Run Time sees the same data, futures and errors with a CPU device as with a GPU device, whenever the GPU executes its commands: commands of task queues are done after sync, commands of command lists are done, once for each submission, after waiting for the fence; data is where it was copied. Futures of launches become valid when they are done.",
"all programs that write and read views, give commands to the task queue and to command lists, submit, wait and reset; all numbers and sizes of views, all kernels, all contents of uninitialized memory, and all points in time at which the GPU executes its commands",
"The CPU device executes commands at once and the GPU device when it likes: what a program sees depends on interleavings and on the history of lists and views; tests of the run time use one device and a mock of Level Zero.",
["ispcrt/detail/cpu/CPUDevice.cpp: CommandListImpl, TaskQueue, MemoryView, Future, Fence", "ispcrt/detail/gpu/GPUDevice.cpp: CommandListImpl, CommandQueueImpl, MemoryView, TaskQueue::sync", "ispcrt/ispcrt.cpp: ispcrtCommandListSubmit, ispcrtCommandListCopyMemoryView, ispcrtFutureIsValid", "docs/ispc_for_xe.rst: ISPCRT Objects"])
p("C82",
"Messages are complete and agree with the outcome",
"Every error and warning that the options do not turn off is printed once with its position, with all its words whatever the width of the terminal; the compiler fails exactly if it found an error, or with --werror a warning that is not turned off, and if it fails it says why; --woff, --wno-perf, --quiet, --error-limit and #pragma ignore warning turn off what the guide says they turn off and nothing else.",
"all messages, indentations and terminal widths; all sequences of findings, all lists of command-line options and all sets of pragmas",
"The words, the line breaks and the repetitions of messages and the combinations of options are unbounded; a test checks that one expected message is a substring of the output.",
["src/util.cpp:PrintWithWordBreaks", "src/util.cpp:lPrint", "src/util.cpp:Error", "src/util.cpp:Warning", "src/util.cpp:PerformanceWarning", "src/args.cpp:ParseCommandLineArgs", "src/lex.ll:lPragmaIgnoreWarning", "docs/ispc.rst"])
p("C83",
"Pragmas mean what the guide says",
"#pragma unroll, #pragma unroll COUNT, #pragma unroll (COUNT), #pragma nounroll and #pragma ignore warning with or without (all) or (perf), with any blanks between their parts, have the effect the guide gives for the loop or the line after them and no other; any other pragma has no effect on the program and is reported; the line numbers of everything after a pragma are those of the source.",
"all texts after #pragma, all counts, all blanks and all sequences of pragmas",
"The text of a pragma is unbounded; tests cover a few spellings and do not look at positions after them.",
["src/lex.ll:lConsumePragma", "src/lex.ll:lPragmaUnroll", "src/lex.ll:lPragmaIgnoreWarning", "src/lex.ll:lNextValidChar", "docs/ispc.rst"])
p("C84",
"Dependency files name the files the compilation read",
"A rule written with -M names the target that -MT or -o gave, or the source with its extension replaced, and then, exactly once each, the source first and every file that was read for the compilation; the flat list has each of these files on a line of its own. A build system that reads the file rebuilds the object when any of the files changes.",
"All targets, sources and sequences of files entered by the preprocessor, with every repetition and order, and all names of files.",
"The names pass through the preprocessor's escaping, the lexer's search for the closing quote, a sorted set and an unescaping loop before make splits them again; what goes wrong depends on the characters of the names and on the order of the files, of which tests use a few plain ones.",
["src/header.cpp: lUnescapeStringInPlace, Module::Output::DepsTargetName, Module::writeDeps", "src/module.cpp: Module::RegisterDependency, lIsStdlibPseudoFile", "src/lex.ll: lHandleCppHash"])
p("C85",
"A switch goes to the label that has the operand's value",
"A switch compiles if the labels that belong to it are integer constants, no two of them have the same value and at most one is default; labels of a switch inside it do not count. It then goes, for each program instance if the operand varies, to the label whose value equals the operand's in the promoted type of the operand, as in C, else to default, else behind the switch.",
"All nestings of statements with labels, all integer types and values of labels and operands, uniform and varying operands.",
"Labels are narrowed to int by rules that depend on their type, and operands are converted to int or int64; whether the two agree is a question about every pair of types and values near the ends of their ranges, of which tests use a few small positive ones.",
["src/parse.yy: labeled_statement, lGetConstantIntOrSymbol", "src/stmt.cpp: lSwitchASTPreVisit, SwitchStmt::EmitCode, SwitchStmt::TypeCheck", "src/ctx.cpp: FunctionEmitContext::SwitchInst, EmitCaseLabel, EmitDefaultLabel", "docs/ispc.rst: Conditional Statements: switch"])
p("C86",
"Pseudo-random numbers",
"After seed_rng() with any seed, random() gives an unsigned 32-bit number and frandom() a float in [0, 1), a multiple of 2^-23, after any number of calls; every program instance gets the sequence of its own seed in the calls it takes part in, whatever the masks; and the generator never degenerates: its state keeps the condition of the algorithm.",
"all seeds, all numbers of calls, all sequences of masks",
"there are 2^32 seeds and periods of 2^113",
["stdlib/stdlib.ispc: seed_rng, random, frandom", "stdlib/include/core.isph: RNGState", "docs/ispc.rst: Pseudo-Random Numbers"])
with open('/verif/properties.jsonl','w') as f:
    for x in P: f.write(json.dumps(x)+"\n")
print(len(P))
