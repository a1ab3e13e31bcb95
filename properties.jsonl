{"id": "C01", "title": "Varying control flow computes each lane's serial result", "statement": "When a function whose body uses varying if/else, for/while/do loops, break, continue, return and nested blocks finishes, every program instance that was active on entry has exactly the variable values (and return value) that the same body would have produced had that instance run alone as serial C code.", "quantifier": "every program built from those statements, every gang width, every entry mask, every initial variable contents", "why_tests_cant": "the masked code depends on the joint divergence pattern of all lanes; tests sample a handful of programs and divergence patterns", "anchors": ["src/ctx.cpp: FunctionEmitContext::{StartVaryingIf,EndIf,StartLoop,EndLoop,Break,Continue,CurrentLanesReturned,RestoreContinuedLanes,ClearBreakLanes}", "src/stmt.cpp: IfStmt::EmitCode, DoStmt::EmitCode, ForStmt::EmitCode, ReturnStmt::EmitCode", "docs/ispc.rst 2260-2445"]}
{"id": "C02", "title": "Inactive program instances have no side effects", "statement": "A program instance that is off when a statement is reached (because of the entry mask or of enclosing varying control flow) never has any of its variables modified by that statement, however the gang's code is laid out (straight-line predicated, branched, or coherent).", "quantifier": "every statement, every gang width, every mask", "why_tests_cant": "needs all masks and all nesting shapes", "anchors": ["src/ctx.cpp: StoreInst/maskedStore, SetInternalMaskAnd, SetInternalMaskAndNot", "src/stmt.cpp: IfStmt::emitMaskedTrueAndFalse"]}
{"id": "C03", "title": "The gang terminates exactly when all active lanes' serial runs terminate", "statement": "Execution of a varying-control-flow function body terminates if the serial run of every active instance terminates, and if the gang terminates then so does every active instance's serial run.", "quantifier": "every program, mask and initial state", "why_tests_cant": "termination of loops under divergence cannot be settled by finitely many runs", "anchors": ["src/stmt.cpp: ForStmt::EmitCode, DoStmt::EmitCode", "src/ctx.cpp: jumpIfAllLoopLanesAreDone, BranchIfMaskAny"]}
{"id": "C04", "title": "Coherent constructs mean the same as the plain ones", "statement": "Replacing if/for/while/do by cif/cfor/cwhile/cdo (in any subset of places) never changes the final per-instance values.", "quantifier": "every program, every choice of coherent flags, every mask and state", "why_tests_cant": "the coherent versions emit different code per mask pattern", "anchors": ["src/stmt.cpp: IfStmt::emitMaskAllOn, emitMaskMixed; ForStmt::EmitCode doCoherentCheck; DoStmt::EmitCode"]}
{"id": "C05", "title": "Maximal convergence after control flow", "statement": "After a varying if, loop or switch, the execution mask is again the mask that held before it, minus exactly the instances that have returned, or (inside a loop) executed break or continue.", "quantifier": "every statement, mask and state", "why_tests_cant": "must hold for every divergence pattern", "anchors": ["src/ctx.cpp: EndIf, EndLoop, restoreMaskGivenReturns, EndSwitch", "docs/ispc.rst 2385-2413"]}
{"id": "C06", "title": "foreach visits every index exactly once", "statement": "foreach (i = a ... b) runs its body for each integer index in [a,b) exactly once, for no other index, and never runs anything if b <= a; with full or partial gangs at the end of the range.", "quantifier": "all a, b with no index arithmetic overflow, every gang width", "why_tests_cant": "unbounded ranges and all widths", "anchors": ["src/stmt.cpp: ForeachStmt::EmitCode, lUpdateVaryingCounter, lCalculateDeltaForVaryingCounter"]}
{"id": "C07", "title": "Multi-dimensional foreach and foreach_tiled cover the iteration domain exactly once", "statement": "foreach / foreach_tiled over n dimensions executes the body exactly once for each point of the Cartesian product of the ranges and for no other point.", "quantifier": "any number of dimensions, all bounds, all power-of-two gang widths", "why_tests_cant": "the extras/partial code paths depend on every residue of every dimension", "anchors": ["src/stmt.cpp: ForeachStmt::EmitCode, lGetSpans"]}
{"id": "C08", "title": "foreach never loses iterations at the ends of the int32 range", "statement": "foreach over any int32 bounds behaves as the exact integer loop even when the bounds are close to the limits of int32.", "quantifier": "all int32 bounds", "why_tests_cant": "boundary arithmetic", "anchors": ["src/stmt.cpp: ForeachStmt::EmitCode (nItems, NSW adds)"]}
{"id": "C09", "title": "foreach_active serialises the active lanes", "statement": "foreach_active (i) runs its body once for each program instance active on entry, in increasing lane order, with only that instance active and i equal to its index; the mask is restored afterwards.", "quantifier": "every mask and width", "why_tests_cant": "all masks", "anchors": ["src/stmt.cpp: ForeachActiveStmt::EmitCode"]}
{"id": "C10", "title": "foreach_unique partitions the active lanes by value", "statement": "foreach_unique (v in e) runs its body once per distinct value of e among the active lanes; each iteration's mask is exactly the active lanes whose e equals v; every active lane takes part in exactly one iteration.", "quantifier": "every mask, width and value vector", "why_tests_cant": "all value/mask combinations, including NaN", "anchors": ["src/stmt.cpp: ForeachUniqueStmt::EmitCode"]}
{"id": "C11", "title": "Varying switch behaves like C switch for each lane", "statement": "A switch on a varying value, with arbitrary case order, default position, fall-through and break, leaves each active instance with the values a serial C switch would give it.", "quantifier": "every switch body, mask and switch value vector", "why_tests_cant": "exponentially many label/mask combinations", "anchors": ["src/ctx.cpp: StartSwitch, EmitCaseLabel, EmitDefaultLabel, SwitchInst, Break", "src/stmt.cpp: SwitchStmt::EmitCode"]}
{"id": "C12", "title": "A break statement only affects the lanes that execute it", "statement": "In a varying loop, executing break removes from the loop only the program instances that reach the break; instances that executed continue earlier in the same iteration go on to the next iteration.", "quantifier": "every loop body", "why_tests_cant": "needs a particular statement order and divergence", "anchors": ["src/ctx.cpp: FunctionEmitContext::Break, ifsInCFAllUniform"]}
{"id": "C13", "title": "Divergence-free execution of unsafe code", "statement": "Statements that are unsafe with an all-off mask (function calls, memory access through uniform pointers, atomics, ...) are not predicated: they are only reached when some program instance is active.", "quantifier": "every program accepted by the predication heuristic", "why_tests_cant": "heuristic depends on recursive AST walk and cost estimate", "anchors": ["src/ast.cpp: lCheckAllOffSafety, SafeToRunWithMaskAllOff, EstimateCost", "src/stmt.cpp: IfStmt::emitVaryingIf"]}
{"id": "C14", "title": "Short-circuit operators evaluate the right operand only where needed", "statement": "For varying a && b, a || b and c ? x : y, each active instance gets the C result, and side effects of the second operand happen exactly for the instances for which C would evaluate it.", "quantifier": "all operand values, masks, both short-circuit and non-short-circuit code paths", "why_tests_cant": "two emission strategies and all masks", "anchors": ["src/expr.cpp: lEmitLogicalOp, SelectExpr::GetValue"]}
{"id": "C15", "title": "Reductions combine exactly the active lanes", "statement": "reduce_add/min/max/any/all/none/popcnt return the fold of the operation over the values of the active instances only; inactive lanes never contribute.", "quantifier": "all widths, masks and values", "why_tests_cant": "all masks and widths", "anchors": ["stdlib/stdlib.ispc: reduce_add, reduce_min, reduce_max, any, all, none, popcnt", "builtins/generic.ispc: __reduce_*"]}
{"id": "C16", "title": "Exclusive scans", "statement": "exclusive_scan_add/and/or gives each active instance the fold over the active instances with smaller index.", "quantifier": "all widths, masks and values", "why_tests_cant": "all masks and widths", "anchors": ["stdlib/stdlib.ispc: exclusive_scan_add/and/or", "builtins/generic.ispc: __exclusive_scan_*"]}
{"id": "C17", "title": "Lane permutations", "statement": "broadcast, rotate, shift, shuffle (one and two sources) return for each lane the documented source lane's value; rotate works for any offset, shift gives 0 outside the gang, and the two implementations of rotate/shift agree wherever both are defined.", "quantifier": "all widths (powers of two), all offsets, all values", "why_tests_cant": "offsets are arbitrary 32-bit integers", "anchors": ["stdlib/stdlib.ispc: rotate, shift, shuffle, broadcast, __shift_via_shuffle, __rotate_via_shuffle", "builtins/generic.ispc: __rotate_*, __shift_*, __shuffle_*", "builtins/util.m4: shuffle1, shuffle2", "builtins/target-avx2-i32x16.ll, target-avx512skx-x64.ll and the like: __shuffle_*, __shuffle2_*"]}
{"id": "C18", "title": "packed_store_active / packed_load_active", "statement": "packed_store_active writes the active lanes' values contiguously in lane order and returns their number, touching no other memory (packed_store_active2 may write one gang's width); packed_load_active reads them back so that store followed by load is the identity on active lanes and leaves inactive lanes unchanged.", "quantifier": "all masks, widths, memories", "why_tests_cant": "all masks", "anchors": ["stdlib/stdlib.ispc: packed_store_active, packed_load_active", "builtins/generic.ispc: __packed_store_active*, __packed_load_active", "builtins/util.m4: packed_load_and_store", "builtins/target-avx2-i32x8.ll: __packed_store_active2i32, __packed_store_active2i64"]}
{"id": "C19", "title": "Global atomics on a varying value are equivalent to some serial order", "statement": "atomic_{add,subtract,and,or,xor,min,max,swap,compare_exchange}_global with a varying value leave memory, and return to each active lane, exactly what issuing the active lanes' operations one after another in some order would, with inactive lanes contributing nothing.", "quantifier": "all widths, masks, values, initial memory", "why_tests_cant": "the implementation reduces first and issues a single hardware atomic", "anchors": ["stdlib/stdlib.ispc: DEFINE_ATOMIC_OP, DEFINE_ATOMIC_SWAP, DEFINE_ATOMIC_MINMAX_OP", "builtins/generic.ispc: __atomic_*_global", "builtins/util.m4: global_atomic_associative"]}
{"id": "C20", "title": "Local atomics return the old value and apply the named operation", "statement": "atomic_*_local on a varying value applies the operation for each active lane in lane order; every lane receives the value before its own update; atomic_swap_local stores the new value.", "quantifier": "all types, masks, values", "why_tests_cant": "all lanes patterns and types", "anchors": ["stdlib/stdlib.ispc: LOCAL_ATOMIC, __swap, LOCAL_CMPXCHG"]}
{"id": "C21", "title": "Saturating arithmetic is exact clamping", "statement": "saturating_add/sub/mul/div for signed and unsigned 8/16/32/64-bit types return the mathematical result clamped to the type's range.", "quantifier": "all operand pairs of every width", "why_tests_cant": "2^128 operand pairs for 64-bit types", "anchors": ["stdlib/stdlib.ispc: saturating_add, saturating_sub, saturating_mul, saturating_div"]}
{"id": "C22", "title": "avg_up / avg_down never overflow", "statement": "avg_up(a,b) = floor((a+b+1)/2) and avg_down(a,b) = floor((a+b)/2) computed without overflow for (u)int8 and (u)int16.", "quantifier": "all operands", "why_tests_cant": "all operand pairs of four types", "anchors": ["stdlib/stdlib.ispc: avg_up, avg_down", "builtins/generic.ispc: __avg_up_*, __avg_down_*"]}
{"id": "C23", "title": "half/float conversion in software", "statement": "half_to_float is exact for every finite half; float_to_half of half_to_float is the identity on every non-NaN half bit pattern; float_to_half maps NaN to NaN and out-of-range values to infinity; the uniform and varying versions agree.", "quantifier": "all 2^16 halves and all 2^32 floats", "why_tests_cant": "all bit patterns", "anchors": ["stdlib/stdlib.ispc: half_to_float, float_to_half, half_to_float_fast, float_to_half_fast"]}
{"id": "C24", "title": "memmove handles overlap", "statement": "memmove(dst, src, n) leaves dst[0..n) equal to the original src[0..n) for any overlap and changes nothing else; memcpy likewise for disjoint ranges; memset fills exactly n bytes.", "quantifier": "all addresses, sizes, memories", "why_tests_cant": "all overlap distances", "anchors": ["stdlib/stdlib.ispc: memcpy, memmove, memset"]}
{"id": "C25", "title": "Integer division only for active lanes", "statement": "Varying integer division/remainder on targets without vector division performs the scalar division only for active lanes, so a zero divisor (or INT_MIN/-1) in an inactive lane never traps, and active lanes get the C quotient.", "quantifier": "all masks and operands", "why_tests_cant": "all masks", "anchors": ["builtins/generic.ispc: __idiv_t, __irem_t"]}
{"id": "C26", "title": "AoS/SoA conversions are inverse transposes", "statement": "aos_to_soa{2,3,4} reads element k of structure i into lane i of vector k; soa_to_aos is its inverse; both touch exactly width*n elements.", "quantifier": "all widths, array contents", "why_tests_cant": "all widths and contents", "anchors": ["builtins/generic.ispc: __aos_to_soa*, __soa_to_aos*", "stdlib/stdlib.ispc: aos_to_soa*, soa_to_aos*"]}
{"id": "C27", "title": "Dot-product intrinsics fallbacks", "statement": "dot4add_* / dot2add_* (with and without saturation) return acc plus the sum of products of the packed signed/unsigned elements, wrapped or saturated to 32 bits as documented.", "quantifier": "all packed operands and accumulators", "why_tests_cant": "2^96 operand triples", "anchors": ["stdlib/stdlib.ispc: dot4add_*, dot2add_*"]}
{"id": "C28", "title": "sRGB8 conversion is in range, in bounds and monotone", "statement": "float_to_srgb8 never indexes outside its table, returns a value in 0..255 for every float including NaN and infinities, and is monotone in its argument; srgb8_to_float is increasing and round-trips.", "quantifier": "all 2^32 floats", "why_tests_cant": "all bit patterns", "anchors": ["stdlib/stdlib.ispc: float_to_srgb8, srgb8_to_float"]}
{"id": "C29", "title": "frandom is in [0,1) and the generator does not degenerate", "statement": "frandom returns a value in [0,1) for every generator state, and every seed accepted by seed_rng leads to a non-degenerate generator state.", "quantifier": "all generator states, all 32-bit seeds", "why_tests_cant": "2^128 states", "anchors": ["stdlib/stdlib.ispc: random, frandom, seed_rng"]}
{"id": "C30", "title": "Bit counting builtins", "statement": "count_leading_zeros, count_trailing_zeros and popcnt return the mathematical counts for every value, for uniform and varying arguments, for every lane.", "quantifier": "all values", "why_tests_cant": "2^64 values", "anchors": ["stdlib/stdlib.ispc: count_leading_zeros, count_trailing_zeros, popcnt", "builtins/generic.ispc"]}
{"id": "C31", "title": "Constant folding agrees with run-time evaluation", "statement": "Folding an operator on constant operands at compile time yields the value the generated code would compute at run time, for all types; operations that would be undefined (division by zero, oversized shift) are not folded into a wrong value.", "quantifier": "all operators, types, operand values", "why_tests_cant": "all operand values", "anchors": ["src/expr.cpp: lConstFoldBinaryArithOp, lConstFoldBinaryIntOp, UnaryExpr::Optimize, BinaryExpr::Optimize"]}
{"id": "C32", "title": "Common type of two operands", "statement": "The common type chosen for a binary operator is symmetric in the operands (apart from diagnostics), is varying iff either operand is varying, and has at least the width of both operands.", "quantifier": "all pairs of atomic types", "why_tests_cant": "all type pairs, and closure under nesting", "anchors": ["src/type.cpp: Type::MoreGeneralType"]}
{"id": "C33", "title": "Name mangling distinguishes overloads", "statement": "Two overloaded functions with different parameter types never receive the same mangled symbol.", "quantifier": "all pairs of parameter type lists (unbounded nesting)", "why_tests_cant": "unbounded type structure", "anchors": ["src/type.cpp: Mangle methods", "src/func.cpp / src/sym.cpp: mangling"]}
{"id": "C34", "title": "Overload resolution does not depend on declaration order", "statement": "The overload selected for a call, or the report of ambiguity, is the same for every order in which the candidates were declared.", "quantifier": "all candidate lists and argument lists", "why_tests_cant": "all permutations", "anchors": ["src/expr.cpp: FunctionSymbolExpr::ResolveOverloads, computeOverloadCost"]}
{"id": "C35", "title": "Gather coalescing preserves values", "statement": "Replacing a set of gathers with known constant offsets by wider vector/scalar loads plus shuffles yields exactly the values the separate gathers would have read.", "quantifier": "all offset sets, widths and memories", "why_tests_cant": "all offset patterns", "anchors": ["src/opt/GatherCoalescePass.cpp"]}
{"id": "C36", "title": "Masked memory operation simplifications are sound", "statement": "Masked loads/stores/blends with statically known masks (all on, all off, or mixed) are replaced by code with the same effect on memory and results.", "quantifier": "all masks and memories", "why_tests_cant": "all masks", "anchors": ["src/opt/ReplaceMaskedMemOps.cpp", "src/opt/IntrinsicsOptPass.cpp", "src/llvmutil.cpp: lGetMaskStatus"]}
{"id": "C37", "title": "Gather/scatter address decomposition", "statement": "Rewriting a vector of pointers as common base plus (scale times) varying offset plus constant offset never changes any lane's address.", "quantifier": "all pointer expressions", "why_tests_cant": "all expression trees", "anchors": ["src/opt/ImproveMemoryOps.cpp: lGetBasePtrAndOffsets, lExtractConstantOffset, lExtract248Scale, lExtractOffsetVector248Scale, lOffsets32BitSafe, lGSToGSBaseOffsets, lGSBaseOffsetsGetMoreConst", "docs/ispc.rst: 32 or 64-bit addressing"]}
{"id": "C38", "title": "launch/sync runs every task exactly once and sync waits for all", "statement": "With the bundled pthreads task system, each task of each launch runs exactly once, with the right task index, and sync returns only after all tasks of its group have finished, for any number of worker threads and any interleaving, including nested launches.", "quantifier": "all schedules, task counts and thread counts", "why_tests_cant": "all interleavings", "anchors": ["examples/common/tasksys.cpp: TaskGroup::Launch, TaskGroup::Sync, lTaskEntry, ISPCLaunch, ISPCSync"]}
{"id": "C39", "title": "Task argument memory is disjoint, aligned and stable", "statement": "ISPCAlloc returns blocks that are aligned as requested, lie inside buffers owned by the task group, and never overlap one another until sync.", "quantifier": "all request sequences", "why_tests_cant": "all sequences of sizes and alignments", "anchors": ["examples/common/tasksys.cpp: TaskGroupBase::AllocMemory"]}
{"id": "C40", "title": "ispcrt reference counting never leaks or double-frees", "statement": "For any sequence of construct/copy/move/assign/destroy operations on runtime handles, an object is destroyed exactly when its last owner goes away, and never before.", "quantifier": "all operation sequences", "why_tests_cant": "unbounded histories", "anchors": ["ispcrt/detail/IntrusivePtr.h: RefCounted, IntrusivePtr", "ispcrt/ispcrt.cpp: ispcrtRetain, ispcrtRelease, ispcrtUseCount", "ispcrt/ispcrt.hpp: GenericObject", "ispcrt/detail/cpu/CPUDevice.cpp: Module, Kernel, CommandListImpl, CommandQueueImpl, TaskQueue"]}
{"id": "C41", "title": "Lexical scoping of names", "statement": "A variable lookup finds the innermost enclosing declaration of that name; leaving a scope restores exactly the previous bindings; redeclaration is rejected only within the same scope.", "quantifier": "all nesting and declaration sequences", "why_tests_cant": "unbounded nesting", "anchors": ["src/sym.cpp: SymbolTable"]}
{"id": "C42", "title": "Multi-target dispatch picks the best supported variant", "statement": "The dispatch function of a multi-target build calls a variant whose instruction set the host supports, and no compiled variant with a better supported ISA exists; if none is supported it aborts.", "quantifier": "all sets of compiled targets and all host capabilities", "why_tests_cant": "all subsets", "anchors": ["src/module.cpp: dispatch creation", "builtins/dispatch.c", "src/isa.h"]}
{"id": "C43", "title": "Target and architecture names round-trip", "statement": "Parsing the printed name of every target/arch/OS/\u2026 enumerator gives it back, and no two enumerators share a name.", "quantifier": "all enumerators (finite)", "why_tests_cant": "aliases and long tables", "anchors": ["src/target_enums.cpp"]}
{"id": "C44", "title": "Integer literals", "statement": "A decimal, hexadecimal or binary literal with any suffix denotes its mathematical value, with the smallest admissible type; literals too large are rejected rather than wrapped.", "quantifier": "all digit strings", "why_tests_cant": "unbounded strings", "anchors": ["src/lex.ll: lParseInteger, lParseBinary", "src/parse.yy: lexer token types"]}
{"id": "C45", "title": "Calls through varying function pointers", "statement": "A call through a varying function pointer calls each distinct pointer among the active lanes exactly once, with exactly the lanes holding it active, and collects each lane's result.", "quantifier": "all masks and pointer vectors", "why_tests_cant": "all pointer/mask combinations", "anchors": ["src/ctx.cpp: FunctionEmitContext::CallInst (varying path)"]}
{"id": "C46", "title": "float_to_half gives the same half on every target", "statement": "For every finite float in range, the half that float_to_half returns is the one the hardware conversion returns, so a program's results do not depend on whether the target has native half conversions.", "quantifier": "all 2^32 floats", "why_tests_cant": "2^32 inputs; the implementations differ only on ties", "anchors": ["stdlib/stdlib.ispc: float_to_half", "builtins/target-avx2-i32x8.ll: __float_to_half_uniform"]}
{"id": "C47", "title": "Overflow in a lane that is off has no effect", "statement": "The values held by lanes that are not executing never matter: whatever they are, and even if arithmetic on them overflows a signed type, evaluating an expression is defined whenever it is defined for the executing instances, and gives those instances the same values, assignments and calls.", "quantifier": "all expressions, masks, and contents of the lanes that are off", "why_tests_cant": "Lanes that are off hold leftovers of earlier control flow; tests start from zeroed or repeated inputs and see neither the overflow nor the optimiser's use of it.", "anchors": ["src/ctx.cpp: FunctionEmitContext::BinaryOperator (nsw)", "src/args.cpp: --wrap-signed-int", "src/expr.cpp: lEmitLogicalOp, SelectExpr::GetValue"]}
{"id": "C48", "title": "Type equality is an equivalence, and equal function types link", "statement": "Whether two types are the same does not depend on the order in which they are compared, nor on a third type equal to both, and a type is the same as itself. Two declarations of a function, in the same or in different files, whose types are the same refer to the same linker symbol.", "quantifier": "all types of any nesting depth, with const considered or ignored", "why_tests_cant": "Types nest without bound (pointers to functions taking arrays of structs ...); tests compare a handful.", "anchors": ["src/type.cpp: lCheckTypeEquality, Type::Equal, Type::EqualIgnoringConst", "src/type.cpp: FunctionType::Mangle, FunctionType::GetFunctionMangledName"]}
{"id": "C49", "title": "No implicit conversion turns a varying value into a uniform one", "statement": "An expression of varying type is never accepted where a uniform value is needed, neither by an implicit conversion nor as an argument of a function: values that differ between program instances are never silently reduced to one of them.", "quantifier": "all source and destination types, all functions and arguments", "why_tests_cant": "The conversion rules are a large nested case analysis over pairs of recursive types; tests try a few pairs.", "anchors": ["src/expr.cpp: lDoTypeConv, CanConvertTypes", "src/expr.cpp: FunctionSymbolExpr::computeOverloadCost"]}
{"id": "C50", "title": "Suggestions for misspelt names", "statement": "When an unknown name is used, the names the compiler suggests are exactly the declared variables and functions that are nearest to it by edit distance (insertions, deletions, substitutions), and only if the distance is at most two; the distance the compiler computes is the least number of edits.", "quantifier": "all symbol tables, all names, all command line option lists", "why_tests_cant": "The edit distance is a minimum over all edit scripts; tests compare a few words.", "anchors": ["src/sym.cpp: ClosestVariableOrFunctionMatch", "src/util.cpp: StringEditDistance, MatchStrings"]}
{"id": "C51", "title": "String literals", "statement": "A string literal denotes the characters written in it, with each documented escape sequence standing for its character.", "quantifier": "all texts of string literals", "why_tests_cant": "The literals are unboundedly long and escapes can meet in any order; tests use a few.", "anchors": ["src/lex.ll: lEscapeChar, lStringConst"]}
{"id": "C52", "title": "Comments and pragmas are skipped and every input is scanned to its end", "statement": "A C comment ends at the first closing mark after its opening, a C++ comment at the end of its line, the current line number advances by the number of line ends passed, and scanning ends on every input.", "quantifier": "all input texts", "why_tests_cant": "The text inside a comment is arbitrary; tests use a few.", "anchors": ["src/lex.ll: lCComment, lCppComment, lConsumePragma"]}
{"id": "C53", "title": "Hexadecimal floating-point literals are exact", "statement": "A hexadecimal floating-point literal denotes exactly the number written, whenever that number is a double.", "quantifier": "all leading digits, fraction digits and exponents", "why_tests_cant": "The conversion accumulates in floating point; exactness for all digit strings needs a proof about rounding.", "anchors": ["src/lex.ll: lParseHexFloat, ipow2"]}
{"id": "C54", "title": "A function that launched tasks waits for them before it returns", "statement": "Whenever a function returns to its caller, by any return statement or at its end, all tasks it has launched have finished: an implicit sync is executed on every path on which a launch was executed.", "quantifier": "all function bodies, all paths through them", "why_tests_cant": "Paths through loops are unbounded; tests run a few.", "anchors": ["src/ctx.cpp: FunctionEmitContext::ReturnInst, LaunchInst, CurrentLanesReturned", "src/func.cpp: Function::emitCode"]}
{"id": "C55", "title": "threadIndex is in range and unique among running tasks", "statement": "In every task threadIndex is at least 0 and less than threadCount, and two tasks that run at the same time have different values of threadIndex.", "quantifier": "all schedules, task counts and thread counts", "why_tests_cant": "all interleavings", "anchors": ["examples/common/tasksys.cpp: lTaskEntry, TaskGroup::Sync, TasksInit"]}
{"id": "C56", "title": "Variants of a multi-target compilation never overwrite each other", "statement": "Whenever a list of targets is accepted for one compilation, the variants are written to pairwise different files, in the directory of the file asked for, and none of them to that file itself, which holds the dispatch code.", "quantifier": "all output file names and all lists of targets, of any length", "why_tests_cant": "every combination of targets and every file name", "anchors": ["src/module.cpp: lGetMangledFileName, lCheckAndFillISAIndices, OutFileNameTarget", "src/ispc.cpp: Target::ISAToString, Target::TargetToISA"]}
{"id": "C57", "title": "A target is what its name says, and so is the library linked into it", "statement": "A target string [ISA]-i[mask size]x[gang size] or [ISA]-x[gang size] that is accepted selects that instruction set, mask size and gang size. The built-in library functions linked into the program come from libraries of the same gang size and mask size whose instruction set the target includes, and linking resolves every library function the program can refer to.", "quantifier": "all strings, all programs, all contents of the libraries", "why_tests_cant": "programs and library contents are unbounded", "anchors": ["src/target_enums.cpp: ParseISPCTarget", "src/ispc.cpp: Target::Target", "src/builtins.cpp: targetParentMap, lLinkTargetBuiltins, lAddBitcodeToModule", "docs/ispc.rst: Selecting The Compilation Target"]}
{"id": "C58", "title": "An index the compiler calls uniform or linear is", "statement": "When the compiler finds that a varying index has the same value in all lanes, it has, and when it finds that lane i is lane 0 plus i times a stride, it is, at every moment of every execution, including indices that are carried round loops.", "quantifier": "all index expressions, all loops and numbers of iterations, all values of the variables", "why_tests_cant": "expressions and executions are unbounded", "anchors": ["src/llvmutil.cpp: lVectorValuesAllEqual, lVectorShiftRightAllEqual, lAllDivBaseEqual, lIsExactMultiple, lVectorIsLinear, lValuesAreEqual, LLVMFlattenInsertChain"]}
{"id": "C59", "title": "A gather or scatter that becomes a load or store accesses the same memory", "statement": "When the compiler replaces a gather by one scalar load, or a gather or scatter by a (masked) vector load or store, also in reverse order, every lane that is on reads or writes the same address as before, and no other memory is touched.", "quantifier": "all base pointers, offsets, scales, masks and memories", "why_tests_cant": "all offset expressions and memories", "anchors": ["src/opt/ImproveMemoryOps.cpp: lGSToLoadStore", "builtins/util.m4: gen_gather"]}
{"id": "C60", "title": "Arrays of soa<> structures behave as ordinary arrays", "statement": "The code for an array of soa<w> structures is that for an array of structures: reading and assigning elements, members and elements of members gives the values it would with an ordinary array, pointers to elements can be moved and subtracted, varying accesses reach the elements of the instances that are on, each value is where the documented layout puts it, and no other memory is touched.", "quantifier": "all structure types, widths, array sizes, indices, pointer steps, sequences of reads and assignments, masks", "why_tests_cant": "types and programs are unbounded; the address of an element depends on the exact splitting of every index", "anchors": ["src/ctx.cpp: lComputeSliceIndex, GetElementPtrInst, AddElementOffset, ApplySliceOffset, loadUniformFromSOA, storeUniformToSOA, gather, scatter", "src/expr.cpp: IndexExpr::GetLValue, IndexExpr::GetLValueType, StructMemberExpr::GetLValueType, lEmitBinaryPointerArith", "src/type.cpp: StructType::checkIfCanBeSOA, PointerType::GetAsSlice, GetAsFrozenSlice", "docs/ispc.rst: Structure of Arrays Types"]}
{"id": "C61", "title": "print writes the format with the values in place of the percent signs", "statement": "The output of a print statement is its format string with each percent sign replaced by the text of the corresponding value: integers of every type in decimal, booleans as true or false, varying values as a list in brackets with the values of instances that are not executing in double parentheses. No memory outside the buffers is written, whatever the values; a format whose percent signs do not match the values is not accepted; splitting a print into several for the GPU does not change the output.", "quantifier": "all formats, numbers and types of values, gang sizes, masks, and ways of writing numbers", "why_tests_cant": "output lengths depend on the values and the gang size; tests print a few short values", "anchors": ["builtins/builtins-c-cpu.cpp: __do_print, ArgWriter::uniform2Str, varying2Str, writeOffLane", "builtins/builtins-c-common.hpp: GetFormatedStr, CopyPlainText, CopyFullText, Arg2Str", "src/stmt.cpp: lProcessPrintArgType, lEncodeType, checkFormatString, splitValidFormat, getPrintSlices, PrintLZFormatStrBuilder, PrintArgsBuilder", "docs/ispc.rst: Output Functions"]}
{"id": "C62", "title": "assert stops the program exactly if an executing instance violates it", "statement": "An assertion on a varying condition stops the program with its message if and only if the condition is false for at least one executing program instance.", "quantifier": "all conditions and masks, all gang sizes and mask representations", "why_tests_cant": "all combinations of conditions and masks on all targets", "anchors": ["builtins/util.m4: __do_assert_varying, __do_assert_uniform", "builtins/generic.ispc: __do_assert_varying, __movmsk, __any", "builtins/util-xe.m4: __do_assert_varying", "src/stmt.cpp: AssertStmt::EmitAssertCode", "docs/ispc.rst: Assertions"]}
{"id": "C63", "title": "A conversion gives every instance the documented value", "statement": "Converting between bool, integer and floating-point types gives in every lane the value C gives: integers keep their value modulo the size of the target, true becomes 1, a number becomes true if it is not zero, a floating-point number is truncated toward zero. Conversions from uniform to varying give every instance the uniform value, in structures, arrays and short vectors too; a pointer survives conversion to an integer of its size; enumerators have the values their declaration gives them.", "quantifier": "all pairs of basic types, all values (also NaN, infinities and poison), gang sizes, mask representations, vector lengths, structure types of any nesting, enumerator lists of any length", "why_tests_cant": "values are unbounded in number, and a value's representation depends on the mask size, on variability and on whether it is in memory", "anchors": ["src/expr.cpp: lTypeConvAtomic, lUniformValueToVarying, TypeCastExpr::GetValue", "src/ctx.cpp: SwitchBoolSize, SwitchBoolToMaskType, SwitchBoolToStorageType, SmearUniform, BroadcastValue, PtrToIntInst, IntToPtrInst", "src/parse.yy: lFinalizeEnumeratorSymbols", "docs/ispc.rst: Type Conversions, Enumeration Types"]}
{"id": "C64", "title": "A variable starts with the value of its initializer", "statement": "A variable declared with an initializer starts with the value the initializer describes: an expression is converted to the type of the variable, the elements of an initializer list go to the elements of the array, structure, vector or varying value in order, at every level of nesting, elements left out are zero, and every expression is evaluated exactly once. Lists that are too long, and values that do not convert, are rejected. Array dimensions that are left out are those of the initializer.", "quantifier": "all types and initializers of any nesting and size, constant or not, gang sizes, vector paddings", "why_tests_cant": "types and initializers nest without bound, and constant, partly constant and non-constant lists take different paths", "anchors": ["src/expr.cpp: InitSymbol, lGetExprListConstant, ExprList::HasAtomicInitializerList, lGetConstExprConstant", "src/type.cpp: ArrayType::SizeUnsizedArrays, VectorType::getVectorMemoryCount", "src/stmt.cpp: DeclStmt::EmitCode", "docs/ispc.rst: Declarations and Initializers"]}
{"id": "C65", "title": "C code and ispc code agree on the memory of exported types", "statement": "The structures and short vectors a generated header declares have, for a C compiler, the size, the alignment and the offsets of members, array elements and lanes they have in compiled ispc code; members of a type are inside it and do not overlap.", "quantifier": "all types of any nesting, uniform, varying or soa, all gang sizes, pointer sizes, element sizes of targets and alignments of scalars", "why_tests_cant": "types nest without bound, and the layout depends on gang size, padding and alignment of the target", "anchors": ["src/header.cpp: lEmitStructDecl, lEmitVectorTypedefs", "src/type.cpp: AtomicType::GetDeclaration, EnumType::GetDeclaration, PointerType::GetDeclaration, ArrayType::GetDeclaration, VectorType::GetDeclaration, StructType::GetDeclaration, VectorType::getVectorMemoryCount, StructType::RegisterInStructTypeMap", "docs/ispc.rst: Data Layout"]}
{"id": "C66", "title": "A generated header defines every type before it is used", "statement": "A generated header declares every structure that occurs in the type of an exported function, at any depth, or that is exported explicitly, exactly once, after every structure, enumeration and short vector its members are made of.", "quantifier": "all lists of exported functions and explicitly exported types, structures of any nesting", "why_tests_cant": "sets of types are unbounded, the order depends on which functions mention which types first", "anchors": ["src/header.cpp: lEmitStructDecl, lEmitStructDecls, lGetElementStructType, lAddTypeIfNew, lGetExportedTypes, lGetExportedParamTypes, Module::writeHeader, Module::writeDispatchHeader", "src/type.cpp: StructType::GetCStructName", "docs/ispc.rst: Interoperability Overview"]}
{"id": "C67", "title": "Shared memory views never overlap and are never lost", "statement": "With the memory pool of the GPU runtime, the memory of two shared views that exist at the same time has no byte in common and lies inside memory obtained from the driver, a view keeps its pointer until it is released, whatever is created and released in between, no call fails unless the driver refuses memory, and when all views are released everything is returned to the driver.", "quantifier": "all sequences of creating, accessing, querying and releasing views of any sizes, all limits of chunk sizes, all drivers that hand out unused memory", "why_tests_cant": "which chunk a view gets depends on the whole history of allocations and releases", "anchors": ["ispcrt/detail/gpu/GPUDevice.cpp: round_up_pow2, ChunkedPool, ChunkedPool::Bulk, MemoryView::allocate, MemoryView::~MemoryView", "ispcrt/ispcrt.cpp: ispcrtNewMemoryView, ispcrtSharedPtr, ispcrtSize", "docs/ispc_for_xe.rst: ISPC Run Time"]}
{"id": "C68", "title": "Commands of a GPU task queue happen in the promised order", "statement": "Copies to the device finish before kernels launched later begin, kernels finish before later copies to the host begin, a barrier separates what was queued before it from what is queued after it, and sync returns only when everything is done and always can return. So when calls that touch the same data are ordered by these rules, the memory after sync is what the calls give one after the other. Launches fail only when more are queued than the documented limit, and a valid future belongs to finished work.", "quantifier": "all sequences of copies, launches, barriers and syncs, all orders in which the device may begin and finish commands, all numbers of command lists and hardware queues, all kernels", "why_tests_cant": "the device chooses the schedule, and the order of commands depends on events and lists that were filled by earlier calls", "anchors": ["ispcrt/detail/gpu/GPUDevice.cpp: TaskQueue, CommandListImpl, EventPool, TaskQueue::sync, TaskQueue::launch, TaskQueue::copyToDevice, TaskQueue::copyToHost, TaskQueue::copyMemoryView, TaskQueue::barrier", "docs/ispc_for_xe.rst: ISPC Run Time (Task queue, Barrier)"]}
{"id": "C69", "title": "Calls of function templates run the instance the documentation describes", "statement": "A call of a function template is accepted when some choice of template arguments gives its parameters exactly the types of the arguments, and that choice is used: T follows the variability of its argument as documented, becomes varying if any argument for it is varying, independently of their order, and explicitly given arguments are kept, a type without a variability being varying. Calls with the same template arguments run the same instance, whose types are the template's with the arguments put in; it runs the specialization for these arguments if there is one and the template's own statements otherwise, and a second or late definition of a specialization is rejected.", "quantifier": "all templates with any number of type and non-type parameters and of function parameters, all argument types of any nesting, all sequences of calls, specializations and explicit instantiations", "why_tests_cant": "types nest without bound and the instances depend on the whole sequence of declarations and calls", "anchors": ["src/expr.cpp: lDeduceParam, lCheckTypeParamsDeductionCompatibility, lDeduceVectorParams, getCandidateTemplateFunctions, normalizeTemplateArgs", "src/func.cpp: TemplateArg, TemplateInstantiation, FunctionTemplate::LookupInstantiation, AddInstantiation, AddSpecialization, GenerateIR", "src/type.cpp: ResolveDependence, ResolveUnboundVariability, ReferenceType::createWithBaseType, VectorType::GetCountString, lCheckTypeEquality", "src/module.cpp: MatchFunctionTemplate, AddFunctionTemplateInstantiation, AddFunctionTemplateSpecializationDefinition, AddFunctionTemplateSpecializationDeclaration", "docs/ispc.rst: Function Templates"]}
{"id": "C70", "title": "round, floor, ceil and trunc give the documented integer on targets without an instruction for them", "statement": "round gives the nearest integer, the even one of two equally near, floor the largest integer not above its argument, ceil the smallest not below it and trunc the next one towards zero, with the sign of the argument; infinities and NaN stay what they are. This holds where the result is computed by adding and subtracting a large constant or by shifting the fraction: float on sse2 and wasm, double on Xe, float16 without hardware support.", "quantifier": "all representable values of the type", "why_tests_cant": "there are up to 2^64 values, and the sums are rounded differently in every binade", "anchors": ["stdlib/stdlib.ispc: round, floor, ceil, trunc", "builtins/target-sse2-common.ll: __round_uniform_float, __floor_uniform_float, __ceil_uniform_float", "builtins/target-sse2-i32x4.ll, target-wasm-i32x4.ll: __round_varying_float, __floor_varying_float, __ceil_varying_float", "builtins/target-xe.ll, util-xe.m4: __round_varying_double, __floor_uniform_double, __ceil_uniform_double, xe_trunc_double", "builtins/util.m4: halfMathRoundPreSSE4", "docs/ispc.rst: Basic Math Functions"]}
{"id": "C71", "title": "ldexp, frexp, abs, signbits, isnan, isinf and isfinite do what they say", "statement": "ldexp multiplies by the given power of two; frexp splits a number into a fraction between 1/2 and 1 and a power of two, and ldexp puts it together again; abs clears the sign and changes nothing else; signbits gives the sign bit; isnan, isinf and isfinite recognize exactly the values they are named after; the integer abs gives the absolute value.", "quantifier": "all values and all exponents, for float16, float and double and all integer widths", "why_tests_cant": "the value space is too large, and exponents wrap around in the bits of the representation", "anchors": ["stdlib/stdlib.ispc: ldexp, frexp, abs, signbits, isnan, isinf, isfinite", "docs/ispc.rst: Basic Math Functions, Transcendental Functions"]}
{"id": "C72", "title": "fmod is the C library's fmod", "statement": "fmod(x, y) is x minus the whole multiple of y that leaves a remainder smaller than y with the sign of x; it is NaN if x is infinite, y is zero or one of them is NaN, and x if only y is infinite or x is zero. The result in one lane depends on that lane's arguments only.", "quantifier": "all pairs of values, for float16, float and double, all reciprocals the target may compute and all combinations of arguments in the lanes of a gang", "why_tests_cant": "pairs of values are too many, and rounding of the quotient decides the result only for some of them", "anchors": ["stdlib/stdlib.ispc: fmod", "docs/ispc.rst: Basic Math Functions (fmod)"]}
{"id": "C73", "title": "min, max and clamp choose the right argument on every target", "statement": "min and max return one of their arguments that is not above, respectively not below, the other; clamp returns a value between the bounds, the given one if it lies there. Infinities are compared like other numbers. The uniform and the varying version give the same result for the same arguments.", "quantifier": "all pairs of values, all targets whose definitions are written out in the builtins, float16, float and double", "why_tests_cant": "pairs of values are too many, and every target has its own sequence of instructions", "anchors": ["stdlib/stdlib.ispc: min, max, clamp", "builtins/target-sse2-common.ll, target-sse4-common.ll, target-avx-utils.ll, target-avx512-utils.ll, target-avx512skx-x16-nozmm.ll, target-avx2-i16x16.ll, target-wasm-i32x4.ll, target-xe.ll: __min_uniform_float, __max_varying_float, __min_varying_double, __max_uniform_double", "docs/ispc.rst: Basic Math Functions (min, max, clamp)"]}
{"id": "C74", "title": "A declaration declares what it says", "statement": "The specifiers and the declarator of a declaration give the variable, function, parameter, typedef or structure member the type that C's rule (a declaration mirrors the use) and the documented defaults give: everything is varying unless it says otherwise, what a pointer points to is uniform, a parameter that is an array is a uniform pointer to its elements. The specifiers can be written in any order, contradicting ones are rejected, and so are arrays of void and of references, references to references, functions that return functions and variables of type void. The name of a typedef means what its declaration means. Enumerators without a value count up from the one before.", "quantifier": "all declarations with any number of specifiers, declarators of any depth with any parameters, after any sequence of typedefs; all lists of enumerators", "why_tests_cant": "declarators and types nest without bound and typedefs refer to earlier ones", "anchors": ["src/decl.cpp: DeclSpecs, DeclSpecs::GetBaseType, lApplyTypeQualifiers, Declarator::InitFromDeclSpecs, Declarator::InitFromType, Declaration::GetVariableDeclarations, DeclareFunctions, GetStructTypesNamesPositions", "src/parse.yy: declaration_specifiers, specifier_qualifier_list, declarator, direct_declarator, pointer, abstract_declarator, direct_abstract_declarator, parameter_declaration, lFinalizeEnumeratorSymbols", "src/type.cpp: GetAsUniformType, GetAsVaryingType, GetAsUnboundVariabilityType, GetAsConstType, ResolveUnboundVariability", "docs/ispc.rst: Types, Pointer Types, Enumeration Types"]}
{"id": "C75", "title": "A program that compiles without a warning does not change a const object", "statement": "If the compiler accepts a program without the warning about discarded const qualifiers, and the program contains no cast, then no variable, array element or structure member that is const by its own type or that of an array or structure around it ever has another value than the one it was initialised with, whatever pointers and references to it are made, stored, passed and returned. Adding const to what a pointer points to never needs a cast.", "quantifier": "all programs with any structures, globals, functions, pointers of any depth, references, loops and recursive calls; every point of every execution", "why_tests_cant": "programs, types and executions are unbounded, and a write may be many assignments and calls away from the conversion that allowed it", "anchors": ["src/expr.cpp: lDoTypeConv, TypeConvertExpr, AssignExpr::TypeCheck, lCheckForConstStructMember, UnaryExpr::TypeCheck, IndexExpr, StructMemberExpr, AddressOfExpr, PtrDerefExpr, ReferenceExpr, SelectExpr::TypeCheck, FunctionCallExpr, InitSymbol", "src/type.cpp: Type::GetAsConstType, Type::MoreGeneralType, lCheckTypeEquality, StructType::GetElementType", "src/stmt.cpp: DeclStmt, lCheckInit, ReturnStmt"]}
{"id": "C76", "title": "Replacing averages and constant shifts by target instructions does not change results", "statement": "When the optimizer replaces arithmetic on 8- and 16-bit vectors by the averaging instructions of the target, and shift() by a constant number of lanes by a shuffle, every lane keeps the value the program computes without the replacement; shift() by a constant gives the value of the lane that far away, or zero outside the gang.", "quantifier": "all expressions of any size on all targets, all values, all lanes, all constants", "why_tests_cant": "the replaced expressions may stand anywhere in expressions of any size, and all operand values have to agree", "anchors": ["src/opt/PeepholePass.cpp: UDiv2_match, SDiv2_match, lMatchAvgUpUInt8, lMatchAvgUpUInt16, lMatchAvgUpInt8, lMatchAvgUpInt16, lMatchAvgDown*, lGetBinaryIntrinsic, matchAndReplace", "src/opt/ReplaceStdlibShiftPass.cpp: replaceStdlibShiftBuiltin", "builtins/target-sse4-i8x16.ll, target-sse4-i16x8.ll: __avg_up_uint8, __avg_up_uint16", "builtins/util.m4: define_avg_*", "stdlib/stdlib.ispc: shift, __shift_via_shuffle"]}
{"id": "C77", "title": "Arguments in response files and ISPC_ARGS are taken as written", "statement": "The arguments the compiler works with are those of the command line, each argument @filename of a readable file replaced by the arguments in the file (also inside files), followed by those in ISPC_ARGS; a text is split at white-space; every list of arguments can be written in a file or in ISPC_ARGS.", "quantifier": "all command lines, all contents of ISPC_ARGS, all file systems with files naming files to any depth", "why_tests_cant": "texts, argument lists and the nesting of files are unbounded", "anchors": ["src/args.cpp: ArgFactory::GetNextArg, FileArgFactory, StringArgFactory, lAddArgsFromFactory, lAddSingleArg, GetAllArgs"]}
{"id": "C78", "title": "The named elements of short vectors are those of the program instance's own vector", "statement": "v.x, v.y, ... (also r, g, b, a and u, v) of a short vector, reached as a variable, a reference, a function result, through a pointer or an index, give each active program instance the named element of the vector it sees; several letters give the vector of the named elements in their order; an assignment to one element changes that element in the active lanes and nothing else; several letters cannot be assigned to; letters that name no element of the vector are errors.", "quantifier": "all gang sizes, vector lengths, masks, memory contents, uniform and varying vectors, uniform and varying pointers, letter sequences of any length", "why_tests_cant": "gang sizes, addresses, masks and letter sequences are unbounded; the combinations of uniform and varying pointers and vectors take different code", "anchors": ["src/expr.cpp: lIdentifierToVectorElement, VectorMemberExpr, MemberExpr::create, MemberExpr::GetValue, MemberExpr::GetLValue, lAddVaryingOffsetsIfNeeded, AssignExpr::GetValue, SizeOfExpr::GetValue", "src/ctx.cpp: AddElementOffset, LoadInst, gather, StoreInst"]}
{"id": "C79", "title": "All declarations of a global name fit together", "statement": "In a file that compiles, all declarations of a global variable have the same type, it has at most one definition and starts with the value given there (zero if none), the value the compiler uses in its place is the one it starts with, it is visible to other files unless it is static, and it is in read-only memory only if it is const. A name is not both a variable and a function. Functions of one name and the same parameters are the same function, the names of exported and of extern \"C\" functions are not overloaded, a function has at most one body, which is what every call runs, tasks return nothing, and static functions are hidden from other files. Files that follow these rules compile.", "quantifier": "all sequences of declarations and definitions of global variables and functions, with any types, storage classes, qualifiers and initializers, in any order", "why_tests_cant": "Tests declare a few names once or twice. The checks depend on the order of the declarations and on what the earlier ones left in the symbol table, and a wrong result shows only in another file or at link time.", "anchors": ["src/module.cpp: Module::AddGlobalVariable, Module::AddFunctionDeclaration, Module::AddFunctionDefinition", "src/func.cpp: Function::GenerateIR", "src/parse.yy: lAddDeclaration, lAddFunctionParams", "src/sym.cpp: SymbolTable::LookupVariable, LookupFunction"]}
{"id": "C80", "title": "new gives every program instance its own memory and delete frees exactly that", "statement": "new gives every executing program instance a block of the documented size, or a null pointer if there is no memory; the blocks are aligned and overlap no live block, also of other instances; instances that do not execute allocate nothing; an initializer is stored once in every new block. uniform new allocates one block for the gang. delete frees exactly the blocks of the executing instances; any subset of the instances can delete its own memory while the rest goes on using theirs, and deleting one block by two instances is an error.", "quantifier": "all gang sizes, execution masks, counts, allocated types, heaps, and behaviours of the C library's allocation functions within their contract, on 32-bit and 64-bit, Unix and Windows, generic and other targets", "why_tests_cant": "Which instances run, which counts they have and where the C library puts blocks cannot be enumerated; sizes that overflow and failed allocations are not tested.", "anchors": ["src/expr.cpp: NewExpr", "src/stmt.cpp: DeleteStmt", "builtins/util.m4: __new_uniform_64rt, __new_varying32_64rt, __new_varying64_64rt, __delete_varying_64rt", "builtins/generic.ispc: __new_varying64_64rt, posix_memalign", "docs/ispc.rst: Dynamic Memory Allocation"]}
{"id": "C81", "title": "Programs of the run time do the same on the CPU and on the GPU", "statement": "A program that uses the ISPC Run Time sees the same data, futures and errors with a CPU device as with a GPU device, whenever the GPU executes its commands: commands of task queues are done after sync, commands of command lists are done, once for each submission, after waiting for the fence; data is where it was copied. Futures of launches become valid when they are done.", "quantifier": "all programs that write and read views, give commands to the task queue and to command lists, submit, wait and reset; all numbers and sizes of views, all kernels, all contents of uninitialized memory, and all points in time at which the GPU executes its commands", "why_tests_cant": "The CPU device executes commands at once and the GPU device when it likes: what a program sees depends on interleavings and on the history of lists and views; tests of the run time use one device and a mock of Level Zero.", "anchors": ["ispcrt/detail/cpu/CPUDevice.cpp: CommandListImpl, TaskQueue, MemoryView, Future, Fence", "ispcrt/detail/gpu/GPUDevice.cpp: CommandListImpl, CommandQueueImpl, MemoryView, TaskQueue::sync", "ispcrt/ispcrt.cpp: ispcrtCommandListSubmit, ispcrtCommandListCopyMemoryView, ispcrtFutureIsValid", "docs/ispc_for_xe.rst: ISPCRT Objects"]}
{"id": "C82", "title": "Messages are complete and agree with the outcome", "statement": "Every error and warning that the options do not turn off is printed once with its position, with all its words whatever the width of the terminal; the compiler fails exactly if it found an error, or with --werror a warning that is not turned off, and if it fails it says why; --woff, --wno-perf, --quiet, --error-limit and #pragma ignore warning turn off what the guide says they turn off and nothing else.", "quantifier": "all messages, indentations and terminal widths; all sequences of findings, all lists of command-line options and all sets of pragmas", "why_tests_cant": "The words, the line breaks and the repetitions of messages and the combinations of options are unbounded; a test checks that one expected message is a substring of the output.", "anchors": ["src/util.cpp:PrintWithWordBreaks", "src/util.cpp:lPrint", "src/util.cpp:Error", "src/util.cpp:Warning", "src/util.cpp:PerformanceWarning", "src/args.cpp:ParseCommandLineArgs", "src/lex.ll:lPragmaIgnoreWarning", "docs/ispc.rst"]}
{"id": "C83", "title": "Pragmas mean what the guide says", "statement": "#pragma unroll, #pragma unroll COUNT, #pragma unroll (COUNT), #pragma nounroll and #pragma ignore warning with or without (all) or (perf), with any blanks between their parts, have the effect the guide gives for the loop or the line after them and no other; any other pragma has no effect on the program and is reported; the line numbers of everything after a pragma are those of the source.", "quantifier": "all texts after #pragma, all counts, all blanks and all sequences of pragmas", "why_tests_cant": "The text of a pragma is unbounded; tests cover a few spellings and do not look at positions after them.", "anchors": ["src/lex.ll:lConsumePragma", "src/lex.ll:lPragmaUnroll", "src/lex.ll:lPragmaIgnoreWarning", "src/lex.ll:lNextValidChar", "docs/ispc.rst"]}
{"id": "C84", "title": "Dependency files name the files the compilation read", "statement": "A rule written with -M names the target that -MT or -o gave, or the source with its extension replaced, and then, exactly once each, the source first and every file that was read for the compilation; the flat list has each of these files on a line of its own. A build system that reads the file rebuilds the object when any of the files changes.", "quantifier": "All targets, sources and sequences of files entered by the preprocessor, with every repetition and order, and all names of files.", "why_tests_cant": "The names pass through the preprocessor's escaping, the lexer's search for the closing quote, a sorted set and an unescaping loop before make splits them again; what goes wrong depends on the characters of the names and on the order of the files, of which tests use a few plain ones.", "anchors": ["src/header.cpp: lUnescapeStringInPlace, Module::Output::DepsTargetName, Module::writeDeps", "src/module.cpp: Module::RegisterDependency, lIsStdlibPseudoFile", "src/lex.ll: lHandleCppHash"]}
{"id": "C85", "title": "A switch goes to the label that has the operand's value", "statement": "A switch compiles if the labels that belong to it are integer constants, no two of them have the same value and at most one is default; labels of a switch inside it do not count. It then goes, for each program instance if the operand varies, to the label whose value equals the operand's in the promoted type of the operand, as in C, else to default, else behind the switch.", "quantifier": "All nestings of statements with labels, all integer types and values of labels and operands, uniform and varying operands.", "why_tests_cant": "Labels are narrowed to int by rules that depend on their type, and operands are converted to int or int64; whether the two agree is a question about every pair of types and values near the ends of their ranges, of which tests use a few small positive ones.", "anchors": ["src/parse.yy: labeled_statement, lGetConstantIntOrSymbol", "src/stmt.cpp: lSwitchASTPreVisit, SwitchStmt::EmitCode, SwitchStmt::TypeCheck", "src/ctx.cpp: FunctionEmitContext::SwitchInst, EmitCaseLabel, EmitDefaultLabel", "docs/ispc.rst: Conditional Statements: switch"]}
{"id": "C86", "title": "Pseudo-random numbers", "statement": "After seed_rng() with any seed, random() gives an unsigned 32-bit number and frandom() a float in [0, 1), a multiple of 2^-23, after any number of calls; every program instance gets the sequence of its own seed in the calls it takes part in, whatever the masks; and the generator never degenerates: its state keeps the condition of the algorithm.", "quantifier": "all seeds, all numbers of calls, all sequences of masks", "why_tests_cant": "there are 2^32 seeds and periods of 2^113", "anchors": ["stdlib/stdlib.ispc: seed_rng, random, frandom", "stdlib/include/core.isph: RNGState", "docs/ispc.rst: Pseudo-Random Numbers"]}
