# Formal model of ispc in Rocq — design

Source: `/repo` (ispc at the pinned commit), read as text only. Model and proofs: `/verif/rocq/theories`
(logical name `Verif`), Coq 8.16.1, standard library only unless stated below.

## Layout

Each area `X` has up to four files:

* `XModel.v`  – executable Gallina model of the code, function by function; each definition cites file and lines.
* `XSpec.v`   – the small independent specification the property is stated against (no model helpers).
* `XProofs.v` – lemmas.
* `XProps.v`  – the property theorems only (`exact lemma`), an `Example` showing that the hypotheses are met
  by a concrete non-trivial case, and `Print Assumptions`.

Names ending in `_partial` prove part of a property (the missing part is stated in MANIFEST.json and below);
names ending in `_refuted` prove that the faithful model violates the property on a concrete witness.

## Trusted base

* Coq's kernel (and `coqchk`, run by `vcheck`).
* The reading of the C++/ISPC/m4 sources as the Gallina definitions; every definition carries its citation.
* LLVM instructions and intrinsics the code emits are modelled by their LangRef semantics
  (add/sub/mul/shl wrap modulo 2^n unless the code asks for nsw, `sdiv`/`udiv` by zero is undefined, `select`,
  `insertelement`/`extractelement`, `llvm.masked.*`, `llvm.vector.reduce.*`, `atomicrmw`).
* Axioms: none expected; the output of `Print Assumptions` of every property theorem is "Closed under the global
  context" unless listed in the section "Axioms" at the end.

## Plan per property

| id | model | proof idea |
|----|-------|-----------|
| C01–C05, C12 | `CF*`: an abstract syntax of statements (assignments, varying/uniform `if`, `cif`, `for`/`while`/`do` and coherent versions, break, continue, return) and an interpreter of the *emitted code*: function mask, internal mask, returned/break/continue lane masks, the static control-flow stack and the "basic block is null" flag, exactly as `FunctionEmitContext` and `Stmt::EmitCode` maintain them. Specification: a serial interpreter for one lane. | simulation: one induction on fuel/statement with an invariant relating masks to the per-lane serial outcome |
| C06–C08 | `Foreach*`: loop nests of `ForeachStmt::EmitCode` as the block graph it emits (reset/test/step/inner/partial blocks), generating the sequence of (index vectors, mask) | list-of-visited-points equality with the Cartesian product |
| C09, C10 | `ForeachAU*`: bit-mask iteration of `ForeachActiveStmt`, `ForeachUniqueStmt` | well-founded on the remaining bits |
| C11 | `Switch*`: label masks as in `EmitCaseLabel`/`EmitDefaultLabel` | induction on the statement list with label suffix semantics |
| C13 | `Safety*`: `lCheckAllOffSafety` and `EstimateCost` as recursive functions on the statement syntax; trace semantics | structural induction |
| C14 | `Logical*`: `lEmitLogicalOp`, `SelectExpr` | case analysis per lane |
| C15–C18, C26 | `Lanes*`: gangs as lists of length W; each builtin as written in `generic.ispc` | list lemmas |
| C19, C20 | `Atomics*` | fold/serialisation lemmas; refutations for the incorrect variants |
| C21, C22, C27, C30 | `Arith*`: machine integers as `Z` with explicit wrap | `lia`/bit lemmas |
| C23, C28, C29 | `Half*`, `Srgb*`, `Rng*`: bit-level integer code, floats via `Coq.Floats.SpecFloat` | case splits on exponent ranges; no sweep over samples |
| C24 | `Mem*`: byte loops over a total memory function | loop invariants |
| C25 | `Div*` | foreach_active lemma |
| C31 | `ConstFold*` | case analysis on operators |
| C32–C34 | `Types*`, `Mangle*`, `Overload*` | case analysis; structural induction for injectivity |
| C35–C37 | `Opt*` | semantic preservation of each rewriting |
| C38, C39 | `Task*`: small-step interleaving semantics of the pthreads task system; bump allocator | inductive invariant over all schedules |
| C40 | `RefCount*` | invariant: counter = number of owners |
| C41 | `Sym*` | refinement to a stack of finite maps |
| C42, C43 | `Target*` | finite enumeration / induction over the candidate list |
| C44 | `Lex*` | induction on digits |
| C45 | `FPtr*` | as C10 |
| C46, C47 | `Half*`, `Expr*` | bit-level case analysis; witness |
| C48, C49 | `Types*` | structural induction on types |
| C50 | `Scope*`: `StringEditDistance`, `MatchStrings` | dynamic-programming invariant against the recursive definition of edit distance |
| C51–C53 | `Lex*`, `HexFloat*` | induction on the characters |
| C54, C55 | `Tasks*`, `TaskMem*` | interleaving semantics |
| C56, C57 | `Targets*` with generated `TargetsTables.v` (`tools/gen_targets.py`) | enumeration of the tables, string lemmas |
| C58, C59 | `Addr*`: the analyses of `llvmutil.cpp` and the address computations of `ImproveMemoryOps.cpp` on an expression language with loops (phis) | induction on expressions and on the iterations |
| C60 | `Soa*`: the layout of `soa<w>` types, the slice pointers of `ctx.cpp` and `expr.cpp`, element-wise loads, stores, gathers and scatters | layout by induction on types; simulation of programs on arrays of ordinary values |
| C61, C62 | `Print*`: the encoding of arguments, `__do_print` with its buffers, splitting for Xe, the assertion functions | buffers by induction on lanes and characters, the splitting by induction on the format |
| C63 | `Cast*`: the conversion instructions chosen for every pair of basic types, bool representations, smearing, vectors, structures, pointers, enumerators | case analysis on types with exact integer and SpecFloat arithmetic; structures by mutual induction |
| C64 | `Init*`: the constant of an initializer list, the stores for expressions and lists, uniform vectors built type by type, unsized dimensions | induction on initializers with values, types and element lists generalised; permutation of the evaluated expressions |
| C65 | `Header*`: C declarations of types, LLVM layout of types; specification: layout by C rules | induction on types, for members and below arrays, sizes and offsets together; bounds and disjointness by induction on types |
| C66 | `Header*`: the recursive emission of structures, collection of vectors and enumerations, include guards | prefix and order invariants of the emitted list; the preprocessor keeps the order |
| C67 | `Pool*`: the memory pool of the GPU runtime: chunks, lists by size, views; specification: what a user learns from the results of calls | invariant of bulks, lists, pool and views over histories, for any driver that hands out unused memory |
| C68 | `Queue*`: command lists, event pools, hardware queues and sync of the GPU task queue as a labelled transition system with an arbitrary device; specification: the promised order of calls, footprints of kernels | invariant over runs; order from events, barriers and syncs; commutation of effects; measure for progress; counting of events |
| C69 | `Templ*`: types with template parameters, deduction, explicit arguments, types of instances, the list of instances with specializations and explicit instantiations; specification: what a declaration stands for under a choice of arguments, the documented table, which commands define a specialization | induction on types and parameters; invariant over the commands of a program; equality of types decided |
| C70 | `FloatModel` (round, floor, ceil by adding a constant, trunc of Xe, float16 emulation) on representations, with the IEEE operations of `SpecFloat`; specification `FloatSpec`: values in units of the smallest positive number, nearest even, floor, ceil | rounding of a sum to an integer, generic in the format and the constant; cancellation of the second sum |
| C71 | `FloatModel` ldexp, frexp, abs, signbits, classification; specification: fields of a representation and scaled values | arithmetic on the fields, generic in the format |
| C72 | `FloatModel` fmod (uniform, and varying with its shared variable) for any rcp and trunc; specification: C's fmod | case analysis for special arguments; witnesses for the rest |
| C73 | `FloatModel` table of the definitions of min and max of the targets, clamp; specification: order of numbers with infinities | comparison of representations is comparison of values; case analysis |
| C74 | `DeclModel` the parser's actions for specifiers and declarators, Declarator objects, InitFromType, qualifiers and variability of types, typedefs, members, enumerators; specification: an inductive reading of declarators as expressions, documented defaults | mutual induction over declarators, abstract declarators and parameters; soundness and completeness |
| C75 | `ConstModel` types with const, lDoTypeConv for values and references, the checks of assignments, initializers, calls and returns, expressions with lvalues, memory as blocks of typed scalars, executions up to any point; specification: a const scalar of a declared type, and that its value is the initial one | invariant over executions: every stored pointer views the object it points to as its declared type with at most const added |
| C76 | `PeepModel` vector expressions with LLVM's lane semantics, the patterns of PeepholePass and the replacement of shift() by a shuffle; specification: every lane that has a value keeps it | induction on expressions; the matched forms characterised, then arithmetic in the wider type |
| C77 | `ArgsModel` GetNextArg, the character sources, lAddSingleArg with a limit on open files, GetAllArgs; specification: the fields of a text, a way to write arguments, the replacement of files | induction on texts and on the nesting of files |
| C78 | `SwizModel` the address computation, loads, temporaries and stores for members of short vectors, on a memory of elements; specification: the element a program instance sees, by the layout of uniform and varying vectors | case analysis on how the vector is reached, induction on the letters and lanes |
| C79 | the reading of global declarations as a fold over the symbol table (types reduced to base, const and pointers), then code generation for the bodies | invariants of the symbol table by induction on the file; completeness from a separate inductive predicate of legal files; counterexamples for second definitions after extern, static after extern or a plain declaration, const pointees, extern "C" overloads, external_only bodies |
| C80 | NewExpr, DeleteStmt and the run-time functions over a heap of live blocks, with the C library's allocator as a parameter | induction over the lanes with the invariant that live blocks are disjoint, for every allocator within its contract; counterexamples for sizes that overflow, failed uniform new, the rate of uniform new and the alignment of initializers |
| C81 | both devices as machines over host and device memory of views; the GPU with command lists, a queue and steps of its own | simulation: what the GPU memory will be after everything pending is the memory of the CPU, for every view whose data is there; induction over executions |
| C82 | DiagModel: the loop that breaks a message into lines, the counters and the set of printed messages. Induction over the loop for words, widths and line breaks; induction over the sequence of findings for what is printed and for the outcome. |
| C83 | PragmaModel: lConsumePragma, lPragmaUnroll, lPragmaIgnoreWarning and strtoull as functions of the text of the line. Case analysis and induction over the text; for ignore warning an equivalence with an inductive description of the accepted spellings. |
| C84 | Escaping of the preprocessor, hash lines, registration, unescaping and both formats as functions on texts; a reader of make rules as specification; round trip by induction, the set by its order. |
| C85 | Values of labels with their types, the preorder walk over statements, conversion of the operand, uniform jump and varying masks as functions; C's rule by congruence modulo the promoted type; walk by induction on statements, arithmetic on residues. |
| C86 | | C86 | `Rng*`: seed_rng, random, frandom on 32-bit words, uniform and varying with masks; specification: the condition of the generator, the numbers of one instance | bit-level argument that a word in use stays in use, induction on calls; witnesses for bad seeds | |

The floating-point *rounding* of hardware operations is not modelled except where `SpecFloat` is used; LLVM's own
optimisation passes, instruction selection and linking are not modelled.

## What is modelled

The header of each model file says which functions it follows and what it leaves out.

<!-- models -->

* `AddrModel.v`: Model of the analyses of vector index expressions (/repo/src/llvmutil.cpp) and of the decomposition of gather and scatter addresses (/repo/src/opt/ImproveMemoryOps.cpp). LLVM values are expression trees; a PHI node is a leaf that carries a number, and a program gives, for each number, the incoming values. Two instructions that are built the same way from the same leaves are the same tree, so "the same llvm::Value" is equality of trees.
* `ArgsModel.v`: Collecting the compiler's arguments from the command line, response files and ISPC_ARGS: src/args.cpp:288-452 (ArgFactory, lAddArgsFromFactory, lAddSingleArg, GetAllArgs). Characters are byte values. isspace is that of the C locale; it is called with a plain char, so that its argument is outside its domain for bytes of 128 and more (undefined in C; glibc answers no, which is what is modelled).
* `AtomicsModel.v`: Atomic operations of the standard library on a varying value. Memory maps addresses to values of the element type. Other hardware threads may act on memory before any of our atomic accesses; what they do is a list of arbitrary memory updates [wenv], of which one is taken before each access. Ordinary (local) accesses take none. Integers of n bits are represented by their signed value; the unsigned variants of the functions instantiate the same code on the same bits (stdlib.ispc:3024-3034), except min and max.
* `CastModel.v`: Conversions between types as the compiler emits them: TypeCastExpr::GetValue and lTypeConvAtomicOrUniformVector (src/expr.cpp), and the instructions of LLVM they use. Every type conversion of the language, implicit or explicit, of a value that is not a constant ends here.
* `CoalesceModel.v`: Gather coalescing (C35): src/opt/GatherCoalescePass.cpp. The model covers the choice of the loads, the loads themselves, putting the vectors together, and which gathers of a basic block are put in a group. 32-bit elements only: the pass looks at the i32 and float gathers (917-922). Not modelled: performance messages, debugging output, metadata, and the bitcast of the result to a vector of floats.
* `ConstModel.v`: const: the rules by which the type checker (src/expr.cpp, src/type.cpp, src/stmt.cpp) decides which expressions may be written through, which conversions of pointers and references drop a const, and what the accepted programs do to memory. Simplifications: variability (uniform, varying), SOA and slices, address spaces, enumerations, short vectors, function pointers, templates and overloading are left out; all arithmetic types are one type; functions return no references; explicit casts, [new] and [delete] are left out; conditions may be true or false at will, and an arithmetic assignment may store any number; the storage of a variable is never used again. A program that goes outside the bounds of an array, or uses a pointer that was not set, does not continue ([eval] gives [None]).
* `DeclModel.v`: Declarations: how the specifiers and the declarator of a declaration become the type of what is declared, and the values of enumerators. The parser's actions (src/parse.yy) that build Declarator objects, and src/decl.cpp. Simplifications: atomic, structure and enumeration types are one constructor with a number; signed/unsigned, short vectors, soa<>, attributes, storage classes and the qualifiers of functions (task, export, inline, ...) are left out; names are left out except for the names of typedefs. An error message and an assertion failure are both [None].
* `DepsModel.v`: Dependency files, -M and -MMM: src/header.cpp 438-541, src/module.cpp 115-140, src/lex.ll 942-970.
* `DiagModel.v`: Messages of the compiler: src/util.cpp 129-137, 199-303, 312-442, and the command-line options and the pragma that control them.
* `DispatchModel.v`: Choosing the variant of an exported function at run time: src/isa.h, builtins/dispatch.c, and the dispatch function emitted by lCreateDispatchFunction, src/module.cpp 1985-2183.
* `ExprModel.v`: Evaluation of varying expressions: the logical operators, the selection operator and the expressions with side effects below them, as src/expr.cpp emits them. A varying value has one entry per lane; [None] in an entry is an LLVM poison value. The outer [None] is undefined behaviour: a branch on poison, a division or load outside its domain, a call of a function that is not declared safe with no lane on. Simplifications: one integer type (int32) and one implicit conversion to bool; one array in memory, read only; the function's own mask is all on, so the internal mask is the full mask; short vectors (int<3>) are left out.
* `FloatModel.v`: Floating-point formats as bit patterns, and the functions of the standard library that work on the representation: round, floor, ceil and trunc where a target has no instruction for them, ldexp, frexp, abs, signbits, isnan, isinf, isfinite, min, max, clamp and fmod. A value of type float16, float or double is the integer whose binary digits are its representation (intbits/floatbits/doublebits/float16bits are bitcasts, builtins/generic.ispc 975-1003). Arithmetic decodes the operands, applies the IEEE-754 operations of Coq's [SpecFloat] (round to nearest even) and encodes the result. Simplifications: a NaN that an arithmetic operation produces has the default pattern, and denormal numbers are not flushed. One lane is modelled, except where lanes influence each other (fmod below).
* `FoldModel.v`: Constant folding, src/expr.cpp: UnaryExpr::Optimize 1383-1506, lConstFold* 2436-2703, BinaryExpr::Optimize 2705-2820, SelectExpr::Optimize 3937-4036, lConvertElement 6511-6563, TypeCastExpr::Optimize 8200-8290; and the code emitted for the same operators: lEmitNegate 1276-1293, UnaryExpr::GetValue 1319-1345, lBinaryExprBitOpInst 1736-1756, lBinaryExprArithOpInst 1900-1921, lBinaryExprCmpOpPred 1945-1963, lTypeConvAtomicOrUniformVector 6979-7618. A constant is held in a variable of a C++ type in the compiler: its value is an integer in the range of the type. At run time it is a bit pattern.
* `ForeachModel.v`: The iteration constructs: foreach / foreach_tiled, foreach_active, foreach_unique and calls through varying function pointers, as the control flow graphs src/stmt.cpp and src/ctx.cpp emit. The loop body is user code; what these constructs decide is which body executions happen, in which order, with which mask and which values of the loop variables. A machine below therefore appends one event per execution of the body. The body cannot influence the machine: bounds and the foreach_unique value vector are evaluated once before the loop, the loop variables are const, and [continue] only ends the current execution (RestoreContinuedLanes restores the mask at the join). The emission of the body under a mask is the subject of SpmdModel. [None] is an LLVM poison value: the result of an [nsw] addition or subtraction that overflows. Branching on poison, or running the body under a mask with a poison lane, is undefined.
* `FpModel.v`: IEEE single precision values as the bit patterns that intbits/floatbits expose. ispc's [floatbits]/[intbits] (stdlib/stdlib.ispc: floatbits, intbits, lowered to bitcasts in builtins/generic.ispc:975-1003) reinterpret 32 bits. A float is represented here by its bit pattern; arithmetic decodes the operands, applies the standard library's executable IEEE-754 operations ([SpecFloat], round to nearest even, precision 24, emax 128) and encodes the result. Simplification: an arithmetic result that is NaN gets the canonical pattern 0x7fc00000, and the flush-to-zero/denormals-are-zero modes are off.
* `HalfModel.v`: Software half/float conversions of stdlib/stdlib.ispc (the branches taken when [__have_native_half_converts] is false), pseudo-random numbers and sRGB conversions. Floats are bit patterns (FpModel.v); halves are 16-bit patterns.
* `HeaderModel.v`: Generated headers: the declarations of structures, enumerations and short vectors (src/header.cpp 36-382, 880-925, 1031-1080), the C declarations of types (GetDeclaration, src/type.cpp), and where the members are in memory (LLVMStorageType, src/type.cpp, with LLVM's data layout).
* `HeapModel.v`: new and delete. src/expr.cpp:10194-10430 (NewExpr), src/stmt.cpp:4300-4400 (DeleteStmt), builtins/util.m4:5549-5835 and builtins/generic.ispc:1195-1332 (the run-time functions), src/preprocessor.cpp:313-327 (the alignment). The C library's allocation functions are a parameter of the model. Allocated types are reduced to the size of one value and their rate; initializers to one value. A 64-bit argument passed for a parameter declared 32 bits wide arrives with its upper half zero (the ABI leaves it open); a product that overflows in the sense of LLVM's nsw flag wraps (LLVM allows any value).
* `HexFloatModel.v`: * Hexadecimal floating-point literals: src/lex.ll:1043-1117
* `InitModel.v`: Initializers of variables: InitSymbol (src/expr.cpp 739-1016), the constants of initializer lists (lGetExprListConstant, src/expr.cpp 4656-4810), and array dimensions left to the initializer (ArrayType::SizeUnsizedArrays, src/type.cpp 1620-1677).
* `LanesModel.v`: Cross-lane operations of the standard library, as written in builtins/generic.ispc, builtins/util.m4 and stdlib/stdlib.ispc. A varying value is a function from lane number to value; [W] is the gang size (TARGET_WIDTH). A mask is a varying boolean: ispc keeps every mask lane all-ones or all-zeros. Memory is an array of elements indexed by [Z] (element size and address arithmetic are abstracted: element k behind pointer p is [p + k]). [None] is LLVM poison / an access outside the object it was computed from.
* `LexModel.v`: * The scanner: src/lex.ll (numbers, strings and comments) and the constants of src/parse.yy
* `MaskModel.v`: Model of the simplification of masked operations: /repo/src/llvmutil.cpp (lConstElementsToMask, GetMaskFromValue, GetMaskStatusFromValue), /repo/src/opt/InstructionSimplify.cpp, IntrinsicsOptPass.cpp, ImproveMemoryOps.cpp (masked loads and stores) and ReplaceMaskedMemOps.cpp.
* `NumModel.v`: The integer helpers of the standard library: memory copies, division under a mask and bit counting. Byte addresses are 64-bit: [addr base j] wraps. The functions with a loop take fuel and answer [None] when it runs out; [None] also stands for undefined behaviour.
* `PackModel.v`: packed_store_active2 for 4- and 8-byte integers on the avx2-i32x8 target (builtins/target-avx2-i32x8.ll:630-696, 843-957): the running lanes are packed with bit deposit, bit extract, one permutation and one masked store per register. Memory is an array of 4-byte words, as in [LanesModel] ([memory]); words are bit patterns. The vector of masks is given as one boolean per lane (icmp ne with 0). The other element types of the target use the loop of builtins/util.m4 ([LanesModel.packed_store_active2]).
* `PeepModel.v`: The two passes that replace vector code by the instructions of a target: averages written as arithmetic (src/opt/PeepholePass.cpp) and shift() by a constant number of lanes (src/opt/ReplaceStdlibShiftPass.cpp). Simplification: the instructions of a basic block, which are in SSA form, are unfolded into expressions. The passes visit the instructions in order, so the operands of an instruction have been treated before it; the instructions that are looked through (divisions, additions, extensions) are never replaced themselves, so that treating the operands first is the same.
* `PoolModel.v`: The memory pool of the GPU runtime (ispcrt/detail/gpu/GPUDevice.cpp 130-145, 614-962): shared memory views are chunks of larger allocations. Addresses and sizes are natural numbers; one of the two pools of a context is modelled, the other one's allocations are like any other allocation of the program.
* `PortModel.v`: What programs that use the ISPC Run Time (ispcrt) do on its two devices: the C API (ispcrt/ispcrt.cpp 717-760, 875-1110), the CPU device (ispcrt/detail/cpu/CPUDevice.cpp 31-103, 224-411) and the GPU device (ispcrt/detail/gpu/GPUDevice.cpp 316-369, 831-884, 1203-1347, 1349-1401, 1507-1650). Simplifications: views do not share application memory; the commands of a list, and lists submitted to a command queue, are executed by the GPU in the order they were given (as with barriers between them, C68 is about task queues without); allocations succeed; the dimensions of launches belong to the kernel.
* `PragmaModel.v`: Pragmas: src/lex.ll 311-315, 738-918. A line is the text between "#pragma" and the end of the line; it has no null characters. The columns of positions are not modelled.
* `PrintModel.v`: Model of the print statement and of assert. Modelled: the argument types and their encodings ([lProcessPrintArgType], [lEncodeType], src/stmt.cpp 3520-3625), the check of the format string, the run time function [__do_print] (builtins/builtins-c-cpu.cpp, builtins/builtins-c-common.hpp) with the sizes of its buffers, the splitting of a print into several calls of printf for Xe targets (src/stmt.cpp 3642-3990), and the assertion functions of builtins/util.m4, builtins/generic.ispc and builtins/util-xe.m4. Not modelled: the text printf makes of a floating-point number or a pointer (a parameter of the definitions: nothing is assumed about it but that it contains no null character), and the output stream.
* `QueueModel.v`: The task queue of the GPU runtime (ispcrt/detail/gpu/GPUDevice.cpp 346-610, 1424-1720): commands are put in up to three command lists with events between them, given to one or two hardware queues by sync, and executed by the device in some order.
* `RedeclModel.v`: The global variables and functions of a file that are declared and defined several times (src/module.cpp AddGlobalVariable, AddFunctionDeclaration, AddFunctionDefinition; src/func.cpp Function::GenerateIR; src/parse.yy). Simplifications: names and the types at the bottom of declarators are numbers; a type is such a number under a list of pointers, with the const of each level; initializers are numbers. Unsized arrays, void variables, alignment, debug information, function templates, inline with noinline, the calling conventions and extern "SYCL" are left out. Only one target is compiled for.
* `RefCountModel.v`: Lifetime of the objects of the ISPC Run Time (ispcrt) with the CPU device: the reference counter (ispcrt/detail/IntrusivePtr.h 13-40), the C API (ispcrt/ispcrt.cpp 515-531, 700-1100), the objects of the CPU device (ispcrt/detail/cpu/CPUDevice.cpp 30-480), the C++ wrappers (ispcrt/ispcrt.hpp 20-103) and IntrusivePtr (ispcrt/detail/IntrusivePtr.h 46-126).
* `RngModel.v`: The pseudo-random numbers of the standard library: stdlib/stdlib.ispc:7005-7059 and the structure RNGState of stdlib/include/core.isph:395-397. Words are unsigned 32-bit numbers.
* `SatModel.v`: Model of the saturating / averaging / dot-product functions of the standard library. Parameter [n] is the element width (8, 16, 32, 64); all definitions are the same code repeated per width in the source. Signed values are integers in [in_s n], unsigned ones in [in_u n].
* `ScopeModel.v`: * The symbol table: src/sym.cpp
* `ShufModel.v`: The shuffles of the x86 targets with vector permutation instructions: builtins/target-avx1-i64x4.ll, target-avx2-i32x4/x8/x16.ll, target-avx512skx-x4/x8/x16/x32/x64.ll and target-avx512icl-x16/x32/x64.ll. A vector of [W] elements is a function from lane to bit pattern; float, double and half are shuffled as integers of the same size (the functions for them are the same instructions on the floating-point registers, or bitcasts around the integer ones). Only the functions with indices that are not compile-time constants are modelled: the constant case is extractelement ([LanesModel.shuffle2]). An element of a register is [None] when it is LLVM poison. The whole operation is [Fault] when it reads memory outside the temporary it allocated.
* `SoaModel.v`: Arrays of [soa<w>] structures: where the elements lie in memory, how indexing, member access and pointer arithmetic find them, and how whole elements are loaded and stored. Modelled: the types of SOA data (src/type.cpp), [lComputeSliceIndex], [GetElementPtrInst], [AddElementOffset], [ApplySliceOffset], [loadUniformFromSOA], [storeUniformToSOA] and the SOA part of [scatter] (src/ctx.cpp), [IndexExpr], [StructMemberExpr] and pointer arithmetic (src/expr.cpp). Simplifications: 64-bit targets with 64-bit addressing (32-bit addressing is in AddrModel.v); the signed overflow of index * size, which LLVM may treat as undefined, wraps; every program instance's pointer is computed by itself, as the vector operations used are all lane-wise; booleans are ordinary one byte data.
* `SpmdModel.v`: Masked execution of SPMD control flow: a model of the code that ispc's front end emits. The source modelled is src/stmt.cpp (IfStmt, DoStmt, ForStmt, SwitchStmt, BreakStmt, ContinueStmt, ReturnStmt, DeclStmt), src/ctx.cpp (FunctionEmitContext: internal mask, function mask, returned / break / continue lanes, block entry mask), src/expr.cpp (lMaskForSymbol, lStoreAssignResult), src/ast.cpp (EstimateCost, SafeToRunWithMaskAllOff) and the mask check at function entry in src/func.cpp. ispc compiles a statement to LLVM IR; here emission and execution of the emitted code are fused into one interpreter [vexec]. What the C++ decides while emitting is in the static part of [cx]; what the emitted code loads, stores and branches on is in the state [vst]. A jump to the break target, to the continue target, or a true return instruction is an outcome of [vexec]. After such a jump nothing further in the same block is executed, which is what `bblock = nullptr` stands for in the C++. Simplifications, for the whole file: one 32 bit integer type for uniform and varying values; no pointers, references, structs or arrays; the CPU path only (no Xe hardware mask emulation), and no use of the --opt=disable-* switches; goto, unmasked and the foreach family are not in this language (foreach has a model of its own).
* `SwitchModel.v`: The labels of switch statements: src/parse.yy 2394-2412, 3724-3760, src/stmt.cpp 2985-3173, src/ctx.cpp 1060-1200. What is executed after a label has been chosen is in SpmdModel.v.
* `SwizModel.v`: The named elements of short vectors: v.x, p->y, a[i].zyx (src/expr.cpp, VectorMemberExpr). Simplifications: memory is a map from addresses to elements, and the unit of addresses is the size of one element of the vector, so that element [k] of a uniform vector is [k] further than the vector, and element [k] of lane [l] of a varying one [k * W + l] further, with [W] the gang size (the padding of vectors to a power of two elements comes after the elements and is left out). References behave as uniform pointers (ctx.cpp:2290-2296). Pointers to soa<> data (slice pointers) and the conversion of bool between its two representations are left out.
* `TargetsModel.v`: Names of targets, architectures and operating systems on the command line, the output files of a compilation for several targets, and the linking of the built-in library along the targets' hierarchy.
* `TaskMemModel.v`: Memory for task arguments: TaskGroupBase::AllocMemory, examples/common/tasksys.cpp 276-299, and the implicit sync before a function returns, src/ctx.cpp 3919-3925 (flag launchedTasks, 271 and 3979), src/func.cpp 527-583.
* `TasksModel.v`: Model of the pthreads task system, examples/common/tasksys.cpp (ISPC_USE_PTHREADS, the default on Linux), and of the way compiled ispc functions use it. Any number of worker and host threads are interleaved by a schedule; one step is one shared memory access or one section protected by taskSysMutex. Simplifications: - pthread mutexes, semaphores and the __sync_* builtins work as specified, memory is sequentially consistent, and plain reads of shared words (numUnfinishedTasks, freeTaskGroups[i]) are atomic; errors reported by the pthread functions (exit(1)) do not happen. - InitTaskSystem (626-688) has been run: the workers exist and wait. - AllocTaskInfo and the loop of ISPCLaunch that fills in TaskInfo structures (986-994) are one step: the structures are private to the launching function until they are pushed. - what functions compute is not modelled: a running function does any sequence of launches and syncs, for any task function and task counts, chosen by the schedule, and then returns. - memory for task arguments is in TaskMemModel; here the argument block of a launch is represented by the launch it was allocated for (the function activation and its number).
* `TemplModel.v`: Function templates: deduction of the template arguments of a call, the types of an instance, and the list of instances of a template, as in src/expr.cpp, src/func.cpp, src/type.cpp and src/module.cpp. Simplifications: atomic, enum and struct types are one constructor with a number for the type's identity; pointers have no slice property and no address space; there are no function types below the top; the value of a non-type argument is a number with the number of its type (the literal's type, as the parser makes it), and the conversion of that value to the type of the template's parameter is the identity; the body of an instance is only named; storage class, inline and unmasked specifiers, the completeness test of AddInstantiation and all diagnostics are left out.
* `TypesModel.v`: Types: equality, symbol mangling, common types of operands, implicit conversions and overload resolution, as in src/type.cpp and src/expr.cpp. Simplifications: no unbound variability and no template-dependent types (both are gone before the code below runs); a struct is its name (as in lCheckTypeEquality); an enum is a number, its source position, whose name is looked up in a table; diagnostics are dropped.

<!-- end models -->

Not modelled at all: the LLVM passes and code generators themselves, the parser's grammar actions other than those named
above, debug information, diagnostics (except which ones stop the compiler), the GPU (Xe) code paths, the JIT engine,
and the assembly/intrinsic bodies of target-specific builtins other than those cited.

## Findings

Cases in which the code, as modelled, does not have the property as stated in English. Each is a theorem with a
concrete witness; the theorems about the same property that carry the suffix `_partial` have hypotheses that exclude
these cases.

<!-- findings -->

* `C01_store_after_continue_refuted`: Finding (x): a loop variable declared in the for statement is stored with an all-on mask in the body, so the copy of an instance that executed `continue` is overwritten: instance 0 of [prog_x] should count 3 iterations, the gang gives 1.
* `C02_global_store_refuted`: Finding (y): at the top level of a function an assignment to a file-scope varying variable that is not `static` ignores the mask the function was called with.
* `C03_masked_return_in_uniform_loop_refuted`: Finding (z): the instances all finish, the gang does not, for any amount of time.
* `C03_predicated_uniform_loop_refuted`: Finding (aa): an empty uniform `while` is straight-line predicated, so the gang hangs although no instance reaches the loop.
* `C04_termination_refuted`: Finding (aa) again: with `cif` in place of `if` the program finishes.
* `C07_execution_without_active_instance_refuted`: ... but with end < start in the innermost dimension and a ragged outer dimension, it is executed with every instance off.
* `C08_near_int32_max_refuted`: foreach (i = 2147483640 ... 2147483647) on an 8-wide target: the ragged end adds 7 to the counter.
* `C08_wide_range_refuted`: foreach (i = -2147483648 ... 1): the item count does not fit.
* `C09_no_active_instance_refuted`: Reached with no active instance (see C13), foreach_active is undefined: it does not skip its body.
* `C10_foreach_unique_nan_refuted`: foreach_unique does not end if the first running instance holds a NaN.
* `C12_break_after_continue_refuted`: Finding (a): an unconditional `break` also takes out of the loop the instances that executed `continue` in the same iteration: instance 0 should go through the loop 3 times.
* `C13_effect_with_all_lanes_off_refuted`: The findings below are effects (e.g. a print or a function call) performed when no instance is active: the gang's trace has an entry to which no lane contributes.
* `C13_switch_label_check_refuted`: An unsafe switch section is run although no instance goes to it: the check that some lane is on is missing at the label.
* `C13_for_step_after_break_refuted`: Finding (az): a `break` executed by all instances jumps to the loop's step, not past the loop, and the step is run with no lane on.
* `C13_code_after_nested_break_refuted`: Finding (ba): unsafe code that follows a masked `break` within a varying `if` is run with no lane on.
* `C14_side_effect_of_skipped_operand_refuted`: The converse of the first theorem's restriction: a && (i++ < ...) is judged cheap and safe, so it is evaluated for every running lane, and a lane where a is false has i incremented.
* `C14_assignment_in_arm_hits_all_lanes_refuted`: t ? i++ : 0 with i declared at the same varying control flow depth: i++ is short-circuited or not, but its store uses the mask all on, so lanes where t is false are incremented too.
* `C14_division_assignment_in_arm_refuted`: t ? (x /= y) : 0 where no lane has t: the division is judged safe and cheap, and is emitted with no lane on, where it is undefined.
* `C15_reduce_min_all_nan_refuted`: When every running instance holds a NaN the answer depends on whether other lanes are off: the off lanes' infinity is returned, which no running instance holds.
* `C15_reduce_equal_none_running_refuted`: The documentation (docs/ispc.rst:6845) promises false when no instance is running; the code reads lane 64 of the vector instead, for every gang size.
* `C15_reduce_equal_novalue_refuted`: The one-argument form lets the builtin store sizeof(T) bytes into a one-byte variable: undefined whenever the lanes agree and the type is wider than a byte.
* `C17_shift_memory_out_of_bounds_refuted`: Beyond that it reads outside its temporary for every offset.
* `C17_x86_off_lane_refuted`: [if (i < programCount) x = shuffle(v, i);] with 8-byte elements on the x32 AVX-512 targets, or 4- or 8-byte elements on the x64 ones, reads outside of the program's data because of the index of a lane that is off: shuffle runs with all lanes and these targets load through a gather whose mask is all true. Any single lane will do.
* `C17_x86_off_lane2_refuted`: The same holds of [shuffle(a, b, i)] with indices that are not known at compile time, on every target and element size that uses the shared code: it stores the two vectors and loads one element per lane, for the lanes that are off too.
* `C18_store_with_lanes_ignores_mask_refuted`: packed_store_active(active, a, v) uses [active] instead of the execution mask: an instance that is not running but has [active] set writes memory.
* `C19_atomic_swap_none_running_refuted`: with no running instance it stores through an uninitialised index
* `C19_atomic_subtract_refuted`: atomic_subtract_global: instance 1 alone subtracts 3, memory goes from 10 to 13
* `C19_atomic_subtract_result_refuted`: on generic targets even instance 0 alone gets the negated old value back
* `C19_atomic_and_generic_refuted`: atomic_and_global on generic targets subtracts
* `C19_compare_exchange_generic_refuted`: atomic_compare_exchange_global on generic targets: an inactive instance exchanges too
* `C19_atomic_min_results_refuted`: atomic_min_global: two instances cannot both find the original value
* `C20_swap_local_double_refuted`: atomic_swap_local on doubles stores old - new: swapping 1.0 into a location holding 3.0 leaves 2.0
* `C21_saturating_mul_uint64_refuted`: A product that does not fit may give one of the top 2^32 values other than the maximum.
* `C22_avg_signed_m4_refuted`: ... so that avg_down does not round down and avg_up not up for negative odd sums.
* `C25_constant_minus_one_refuted`: The full claim fails for the constant -1: lanes that are off and hold INT_MIN are divided too.
* `C25_all_lanes_off_refuted`: It fails too when no lane is on: the loop over the active lanes is then undefined. This code is reachable with no lane on, because x /= b and x %= b count as safe to run with all lanes off (see C14).
* `C27_dot4add_u8u8packed_refuted`: Four fallbacks do not compute the documented value.
* `C27_dot4add_i8i8packed_sat_refuted`: Signed 8-bit fallback, -1 * 1: the operands are not sign-extended.
* `C27_dot2add_i16i16packed_sat_refuted`: (-2^15)^2 + (-2^15)^2 overflows before -1 is added.
* `C27_dot2add_u16i16packed_sat_refuted`: The first addition saturates although the whole sum fits.
* `C29_seed_refuted`: but not every seed does: with seed 0 the first component is 0 in every later state
* `C31_int64_to_float_rounded_twice_refuted`: They are rounded twice.
* `C31_division_overflow_stops_compiler_refuted`: -2147483648 / -1 and % stop the compiler.
* `C31_folding_undefined_in_compiler_refuted`: By the C++ standard the compiler's own arithmetic is undefined where the program's is not.
* `C31_negate_varying_uint16_refuted`: -x for a constant varying uint16 fails an assertion.
* `C32_float16_precedence_refuted`: int32 + float16 is a float16, not an int32.
* `C32_enum_narrowed_refuted`: An enum (32 bits) and an int8 give an int8.
* `C32_pointers_not_symmetric_refuted`: Pointers to constant and to writable elements: the first operand's type is used.
* `C33_function_pointer_result_refuted`: What the symbol leaves out.
* `C33_constant_pointer_refuted`: Functions that differ in the constness of a pointer parameter get the same symbol, although the types are not equal.
* `C33_unnamed_enums_refuted`: an enum without a name has the name ""
* `C33_struct_name_refuted`: f(struct A_5D_s_5B_unB) and f(struct A, struct B)
* `C33_function_named_like_instance_refuted`: f<uniform int>(varying float) and the function f___uni(varying float)
* `C34_widening_loses_values_refuted`: int8 to uint8 loses the negative values and counts as widening; int32 to double loses nothing and does not.
* `C34_exact_function_ambiguous_refuted`: A function that fits exactly and two templates that need a conversion: reported as ambiguous.
* `C34_reference_order_refuted`: Documented: an exact reference (2) is better than a match up to const (4). The costs say otherwise.
* `C34_many_arguments_refuted`: With 104 arguments the cost passes 2^30, and a function all of whose arguments convert is not found.
* `C35_wide_refuted`: Two gathers on a target of width 32 (with --opt=disable-gathers): half of the second result is that of the first gather.
* `C35_negative_refuted`: A negative constant in a 32-bit gather is taken for a large one.
* `C35_unaligned_refuted`: Offsets that are no multiples of the element size are rounded.
* `C35_overflow_refuted`: The scaled variable offset is computed in 32 bits.
* `C35_poison_refuted`: An element that is already in place becomes poison when a two-wide load is inserted into the other half of the vector.
* `C35_barrier_refuted`: A gather is moved before a memory barrier.
* `C35_alignment_refuted`: With --opt=force-aligned-memory the wide loads claim an alignment their addresses need not have, although the gathered elements are where the base pointer is aligned.
* `C36_wide_select_refuted`: A select of eight elements on a target of width four: only the first four elements of the mask are looked at.
* `C36_crash_refuted`: A select of more than 64 elements with a constant mask ends the compiler.
* `C36_avx_load_refuted`: The AVX masked loads give zero to lanes that are off; with a mask that is all off they are replaced by poison ([None]).
* `C36_undef_prefix_refuted`: <1, undef, 1, 0> is taken for <1, 1, 0, 0>: a lane that is on is not stored.
* `C36_prefix_load3_refuted`: With three lanes on, the value for the fourth lane is that for the first.
* `C37_wrapped_index_refuted`: zext(i + 1): the 1 is added after widening.
* `C37_regrouped_refuted`: sext((x - 1) + (y - 1)): no step overflows, but x + y does.
* `C37_poison_refuted`: (x - 2^30) << 1 with x = 2^30 does not overflow; x << 1, with the same flags, does.
* `C37_factor_refuted`: A factor of 2^32 + 4 becomes a factor of 4.
* `C37_unsigned_32_refuted`: 32-bit addressing. An unsigned index of 2^31 becomes negative ...
* `C37_sum_32_refuted`: ... as does the sum of two indices that were widened before they were added (native gathers) ...
* `C37_constant_32_refuted`: ... and a constant offset of 2^32 is dropped.
* `C38_sync_returns_early_after_failed_cas_refuted`: Finding: a function may get a group that another one uses, because AllocTaskGroup takes any group the compare-and-swap returns. Then sync returns while a task is still running.
* `C38_launch_of_no_tasks_refuted`: Finding: launch[0] leaves an empty group in activeTaskGroups; the next sync fails its assertion.
* `C39_large_request_overruns_buffer_refuted`: Without the bound on the size: a request of 2^31 bytes is "satisfied" from the buffer of 256 bytes, because int newOffset wraps; the next block lies outside of all buffers.
* `C39_sixteen_large_requests_refuted`: Sixteen requests of 2^28 bytes before a sync: the assertion on the number of buffers fails.
* `C39_buffers_leak_refuted`: A task group that is used again after a sync asks for new buffers although it still has the old ones, and forgets those: after n uses, each with one request of 1000 bytes, operator new[] has been called n times and only the last of the n buffers is one the group (and so its destructor) knows of.
* `C40_task_queue_future_refuted`: A task queue deletes its futures whatever their counters: the program that keeps one longer uses freed memory.
* `C40_static_link_refuted`: Statically linked modules share the open libraries of their parts: releasing both closes a library twice.
* `C40_copy_assign_leak_refuted`: Assigning to a wrapper leaks what it referred to.
* `C40_move_assign_leak_refuted`: So does a move assignment.
* `C40_copy_null_refuted`: Copying a wrapper that was moved from uses a null pointer.
* `C40_intrusive_move_assign_refuted`: Move assignment leaks; moving a pointer onto itself empties it and leaks its object.
* `C42_macos_icl_refuted`: On macOS a program for a later instruction set only is terminated also on machines that have it.
* `C42_vnni_refuted`: Not so: on a machine with AVX-512 and without AVX-VNNI the AVX-VNNI variant is run, although the AVX2 one was there too.
* `C42_fma_refuted`: The AVX2 variants are compiled for Haswell, with fused multiply-add; the run-time check does not look for it.
* `C42_knl_refuted`: On Knights Landing every program is terminated.
* `C42_unordered_refuted`: ... but the second load, after the null test, may return null, and null is called.
* `C42_common_refuted`: Not so that every machine which has one of the instruction sets can run the dispatch function: the order is not one of inclusion.
* `C43_nozmm_refuted`: Two targets with the same printed name: the target asked for with "-nozmm" is reported as the one with.
* `C43_empty_refuted`: Empty names are dropped without a message.
* `C43_linux_refuted`: A compiler built for custom Linux and Windows only accepts --target-os=linux.
* `C44_octal_refuted`: Decimal literals that start with 0 are read as octal, or trip an assertion.
* `C44_too_big_refuted`: Literals that no permitted type can hold are not rejected: they saturate, wrap or change sign.
* `C46_ties_refuted`: but on ties the software conversion rounds away from zero: 1 + 2^-11 becomes 1 + 2^-10 in software and 1 in hardware
* `C47_overflow_in_lane_that_is_off_refuted`: By default it is not so: with INT_MAX in a lane that is off, (x + 1 < 5) ? f(x) : 0 branches on poison, although the only running lane is fine.
* `C51_hex_escape_refuted`: A hexadecimal escape gives a zero character, and its digits are then taken as plain text.
* `C52_pragma_refuted`: A #pragma on a last line without a line end is never finished, whatever the number of steps.
* `C53_small_exponents_refuted`: 2^-1030 is a double, but the literal for it gives 0; and exponents are taken modulo 2^32.
* `C54_return_in_loop_before_launch_refuted`: for (...) { if (c) return; launch f(); }: the return comes before the launch in the text, so it does not sync, but the second time around the task of the first is still running.
* `C55_thread_index_not_unique_refuted`: Finding: tasks that run at the same time in different threads get the same threadIndex, because a thread that waits in sync calls tasks with threadIndex 0.
* `C56_directory_refuted`: A file without a dot in a directory with one: the suffix goes into the directory name.
* `C58_linear_direction_refuted`: An index that changes direction in every iteration is called ascending: the list of PHI nodes seen does not say for which stride.
* `C58_linear_uses_refuted`: While an index is being shown linear, uses of it count as equal in all lanes: x += x & 15 is called linear.
* `C58_all_equal_loops_refuted`: The same with quotients: x starts as the lane number and is tripled; x >> 2 is called the same in all lanes.
* `C58_all_equal_constants_refuted`: ... and so is <-1, 0, 1, 2> shifted right by three: the quotients are rounded towards zero.
* `C58_all_equal_negative_refuted`: <-1, 0, 1, 2> shifted right by three is judged equal in all lanes: the quotients are rounded towards zero, the shift rounds down.
* `C58_all_equal_casts_refuted`: Values inserted one by one are compared without the widths of inner casts.
* `C58_linear_wrap_refuted`: An 8-bit index that wraps and is then widened is called linear.
* `C59_scalar_load_off_refuted`: The single load is done even if no lane is on: it can touch memory the program never touches.
* `C59_offset_32_refuted`: 32-bit offsets: the load multiplies in 32 bits, the gather in 64.
* `C60_two_dimensions_refuted`: In an array of arrays of [soa<>] structures, [soa<8> Point g[2][16]], the elements [g[0][1]] and [g[1][0]] are at the same place: the first index is already split between structure and slice (src/expr.cpp 5240-5250, src/ctx.cpp 2372-2390), and what is left of it is added to the second.
* `C60_member_array_of_arrays_refuted`: [struct Foo { float m[2][2]; }; soa<8> Foo f[4]]: [f[0].m[0][1]] and [f[1].m[0][0]] are at the same place. The member is found with a frozen slice pointer, but the type of [f[0].m[0]] is that of an ordinary slice pointer (src/expr.cpp 5319-5324), so the second index moves to another slice.
* `C60_pointer_into_member_array_refuted`: For the same reason [&f[0].y[0] + 1] is not [&f[0].y[1]], as it is in an ordinary array of structures with a member [float y[3]], but [&f[1].y[0]].
* `C60_uint32_index_refuted`: A varying [uint32] index of 2^31 gets to the wrong element, although ordinary arrays may be indexed with it ([extend]): the sign bit of the index is shifted in (src/ctx.cpp 2271) and then the result is taken for unsigned.
* `C61_buffer_overflow_refuted`: A gang of 64 instances that all print a varying int64 of INT64_MIN writes outside of the buffer (as does a gang of 4 with doubles of 1e300).
* `C61_boolean_off_refuted`: The value of a varying boolean in an instance that is not executing is printed as underscores, not in parentheses (builtins/builtins-c-cpu.cpp 133-138); on Xe targets it is printed in parentheses.
* `C61_long_output_refuted`: Longer output is cut off.
* `C62_xe_message_refuted`: On Xe targets the message of [assert(x % 2 == 0)] is the format of a printf without arguments: what is printed is undefined.
* `C63_splat_bool_refuted`: The compiler fails for every uniform value converted to a uniform short vector of bool.
* `C63_negative_enumerator_refuted`: An enumerator with a negative value has a different value when it is converted to a 64-bit integer or to a floating-point type: 2^32 is added.
* `C64_vector_short_refuted`: uniform float<4> v = { a, b } with variables a and b leaves v[2] and v[3] undefined (poison), although { 1, 2 } makes them zero, as does the same list for an array.
* `C64_evaluated_twice_refuted`: In a list for a uniform vector, the only expression of a type other than the element type is evaluated twice: in uniform float<4> v = { x, y, z, f() } where f returns an int, f is called twice (src/expr.cpp 960-963).
* `C64_vector_order_refuted`: The values of a list for a uniform vector are not evaluated from left to right but type by type: with side effects (uniform float<4> v = { g(), f(), x, f() } with f of type int) the calls of f come first.
* `C64_bool_vector_refuted`: A list of variables for a uniform vector of bool is stored as bits, not as the bytes the elements are in memory: no element has its value (src/expr.cpp 969 stores without the type).
* `C64_varying_accepted_refuted`: Varying values in a list for a uniform vector are accepted without an error if a uniform variable comes first, and the vector stays undefined: uniform float<4> v = { d, y, y } with a uniform double d and a varying float y (src/expr.cpp 934 returns).
* `C64_nested_braces_refuted`: A value in braces in a list for a uniform vector that is not constant stops the compiler: uniform float<2> v = { { a }, b }; for an array or a varying vector it is accepted.
* `C65_varying_enum_refuted`: A varying enumeration as a member has W times W elements in the header: struct S { varying E e; int32 x; } puts x at 64 instead of 16 (src/header.cpp 131-139 appends [W] to a declaration which has it already).
* `C65_varying_pointer_refuted`: A varying pointer as a member, of a structure passed by reference, is one pointer in the header.
* `C65_varying_vector_refuted`: A varying float<3> as a member is an array of W vectors of three elements, each padded to four, in the header, and three vectors of W elements in ispc: element 1 of lane 0 is elsewhere, and the size is different.
* `C65_soa_vector_refuted`: A short vector in a soa structure is declared float[4]3 v, which is not C.
* `C65_array_of_varying_refuted`: An array of a varying structure as a member is an array of W uniform structures per element: struct T { float x, y; }; struct S { varying T a[2]; } has lane 1 of a[0].x at 4 in ispc and at 8 in the header.
* `C65_aligned_refuted`: An explicit alignment is in the header only: struct T { int32 x; } aligned to 16 has four bytes in ispc and sixteen in the header, so elements of an array and members after it are elsewhere.
* `C65_empty_refuted`: A structure without members takes a byte in ispc and none in C: what follows is elsewhere.
* `C65_arm_refuted`: On 32-bit ARM, where vectors of 16 bytes are aligned to 8, float<2> takes 16 bytes in ispc and 8 in the header (src/header.cpp 288-302: the declaration has the alignment, not the size of the padded vector).
* `C65_targets_refuted`: The layout of a uniform structure depends on the target: with several targets in one compilation, there is one header, and a float<3> takes 16 bytes for a target of 32-bit elements and 64 for one of 8-bit elements.
* `C66_explicit_refuted`: The vectors and enumerations in a structure exported explicitly are not declared, so the header does not compile: export { S } (src/header.cpp 890-914 takes them from functions only).
* `C66_guard_refuted`: A soa structure and the uniform one of the same name have the same guard: the second is not declared.
* `C66_varying_vector_refuted`: A varying short vector in a structure is declared with a type the header does not define.
* `C66_array_of_varying_refuted`: An array of varying structures needs the uniform structure, only the varying one is declared.
* `C66_dispatch_refuted`: With several targets, types are declared in the common header for gangs of 4, 8 and 16 only: none for avx512skx-x32 and x64; a uniform structure with varying members of its own has the layout of the first target.
* `C67_size_refuted`: Finding: the size of a shared view from the pool (ispcrtSize) is the size asked for before the first access and a larger one, rounded up to a chunk, after it.
* `C67_device_view_refuted`: Finding: with ISPCRT_MEM_POOL set, a shared view created for a device and a hint that selects the pool has no pool: m_memPool is null and is dereferenced.
* `C67_reuse_refuted`: Finding: not after a call has failed because the driver had no memory. Then the bulk without memory may be in front of one with a free chunk, and accesses go on failing.
* `C68_barrier_copy_refuted`: With several command lists a barrier does not hold back copies to the device: the copy of a later call happens before the kernel that was launched before the barrier.
* `C68_barrier_host_refuted`: With several command lists a barrier after a copy to the host does not hold back the kernels of later launches: the host sees what they write.
* `C68_copy_view_refuted`: With a copy engine a copy between views of the device does not wait for copies to the device, not even with a barrier in between: it copies what was there before.
* `C68_sync_copy_refuted`: With a copy engine sync returns while a copy to the device that follows the last launch is not done, and resets its command list.
* `C68_sync_kernel_refuted`: With a copy engine sync returns while a kernel launched after the last copy to the host still runs, and resets its command list.
* `C68_dims_refuted`: Otherwise the remainder is not computed, and sizes are taken modulo 2^32.
* `C69_base_type_refuted`: The deduction compares only the variability when T is already varying and the next argument is uniform: f(T, T) accepts a varying int and a uniform float as T = varying int, and rejects the same two arguments in the other order.
* `C69_vector_refuted`: A short vector is deduced only from the parameter T<N> itself: not from T<4>, not from int<N>, not through a pointer, and not when T is given explicitly and only N is left.
* `C69_array_refuted`: The length of an array is never deduced, although an instance for it can be asked for explicitly.
* `C69_long_name_refuted`: The name of a count is cut to 15 characters before the deduced number is stored under it: with a longer name it is never found.
* `C69_default_argument_refuted`: A parameter with a default argument whose type depends on T, left out in the call: the types of the arguments are read past their end.
* `C69_kind_refuted`: A number is accepted for a type parameter, and a type for a number; the instance then has the number's type, or a count that was never filled in.
* `C69_number_type_refuted`: f<2> and f<2u> are two instances of a template with one parameter int N: a specialization for one is not used for the other.
* `C69_return_type_refuted`: A specialization with another return type is accepted, also after a call that has used the template's own statements; the llvm function keeps the return type of the template.
* `C69_instantiation_refuted`: An explicit instantiation after a call with the same arguments makes a second function of the same name, an error; before the call it is accepted.
* `C69_no_specialization_refuted`: A specialization that repeats the types of the instance is rejected if T is const and a parameter is T&, or if a parameter is T**: it is compared with the template's types before these are completed.
* `C69_reference_refuted`: The reference type of an instance's parameter T*& says neither uniform nor varying, although it refers to a varying pointer.
* `C70_round_large_refuted`: From 2^23 on, where every float is an integer already, round and floor change odd numbers on sse2 and wasm: 8388609 becomes 8388608.
* `C70_ceil_large_refuted`: ceil changes some, too: 8388611 becomes 8388612.
* `C70_xe_double_refuted`: double on Xe goes wrong right after the bound of C70_round_double_xe_partial, because 4.5036e15 is not 2^52: the integer 4503599254740993 is rounded to 4503599254740992.
* `C70_double_half_way_refuted`: double on sse2 and wasm calls the C library's round, which takes half-way cases away from zero: round(0.5) is 1 and round(2.5) is 3, while float and the other targets give 0 and 2.
* `C70_trunc_xe_refuted`: trunc for double on Xe shifts by a negative amount for every finite number from 2^53 on: the result is poison.
* `C70_trunc_sign_refuted`: Its varying version loses the sign of zero that the uniform version keeps: trunc(-0.5).
* `C70_floor_sign_refuted`: floor(-0.0) and ceil(-0.5) are +0 on sse2, wasm and (double) Xe; the instructions of the other targets give -0.
* `C71_iabs_refuted`: 
* `C71_ldexp_overflow_refuted`: ldexp of a number that becomes too large is not infinity: the exponent runs into the sign bit. 2^0 * 2^n with n one more than the largest exponent is -0.
* `C71_ldexp_underflow_refuted`: If it becomes too small the result is not zero or denormal either: 2^0 * 2^-2^(ew-1) is minus infinity.
* `C71_ldexp_infinity_refuted`: ldexp(infinity, -1) is finite.
* `C71_ldexp_denormal_refuted`: ldexp of the smallest denormal number by 1 is not twice that number.
* `C71_ldexp_fast_zero_refuted`: With --math-lib=fast ldexp(0, 1) is not 0.
* `C71_frexp_special_refuted`: frexp(0) is not 0 but 1/2 with a negative exponent, and frexp of infinity is a number.
* `C71_frexp_denormal_refuted`: frexp of the smallest denormal number is wrong: r * 2^p is more than 2^mw times as large.
* `C72_infinity_refuted`: fmod(infinity, infinity) is infinity: that y is infinite is tested before that x is.
* `C72_remainder_refuted`: For finite numbers the remainder can be wrong even if rcp is correctly rounded and trunc exact, because x * rcp(y) can fall below a whole number: fmod(41.0, 41.0) is 41 and not 0.
* `C72_sign_refuted`: Or rise to a whole number: for the number x just below y the result can be negative.
* `C72_denormal_refuted`: For a denormal y the reciprocal is infinite: fmod(1, 2^-149) is infinite.
* `C72_lanes_refuted`: The varying version keeps nan_bits in a uniform variable, so a lane with a positive x gets a negative NaN if another lane's x is negative.
* `C73_avx_nan_refuted`: On AVX and AVX-512 the uniform and the varying max disagree on max(1, NaN): 1 and NaN.
* `C73_avx_clamp_refuted`: So do the uniform and the varying clamp of NaN: the one gives the upper bound, the other the lower.
* `C73_wide_nan_refuted`: On avx2-i16x16, avx2-i8x32, avx512skx-x32, avx512skx-x64 and wasm the uniform float versions return the first argument and the varying ones the second if one of them is NaN.
* `C73_double_nan_refuted`: double: on avx512skx-x16-nozmm the varying min ignores a NaN that the uniform min returns, and on wasm it is the other way round.
* `C74_abstract_refuted`: In a parameter without a name, the pointers before an array are reduced to one, without its qualifiers: `f(float * uniform [3])` and `f(float ** [3])` do not declare what `f(float * uniform p[3])` and `f(float **p[3])` declare.
* `C74_function_refuted`: A parameter without a name that is a function, `f(int (float))`, hits an assertion; with a name it is accepted.
* `C74_typedef_refuted`: `typedef uniform int UI;`: `const UI x` is uniform, but `UI const x` is varying; `varying UI x` is an error, but `UI varying x` is not; and after `typedef int F(int);` the compiler stops at `F const`.
* `C74_void_refuted`: After `typedef void V;` neither V nor void itself can be used any more, not even for the result of a function.
* `C74_member_refuted`: `uniform varying int x` is an error for a variable, but accepted for a member of a structure.
* `C75_array_to_void_refuted`: A const array can be passed to memset (any parameter of type [void *]): pointers to const are refused there, arrays of const elements are not (expr.cpp 259-265). "const int g[1] = { 1 }; void main() { memset(g, 7, ...); }" compiles without a warning and changes [g].
* `C75_reference_refuted`: A reference to an array of const pointers may be bound to an array of pointers to const: only the outermost const is looked at (expr.cpp 422-425). "const int k = 1; void main() { const int *a[1] = { &k }; int * const (&r)[1] = a; *r[0] = 7; }"
* `C75_struct_assign_refuted`: A structure that holds an array of structures with a const member can be assigned: the check for const members does not look into arrays (expr.cpp 3524-3553). "struct A { const int c; }; struct B { A a[1]; }; B x = { { { 1 } } }, y = { { { 2 } } }; void main() { x = y; }" changes [x.a[0].c].
* `C75_member_to_void_refuted`: A pointer to a structure with a const member converts to [void *]: only a const at the top of the type pointed to is looked at (expr.cpp 347-356). "struct S { const int c; }; S s = { 1 }; void main() { memset(&s, 7, ...); }"
* `C75_pointer_reference_refuted`: No variable of pointer type can be bound to a reference to that very type: the conversion to a reference is tried only after pointers that are not converted to pointers have been refused (expr.cpp 328-336). "int *p; int *&r = p;" is an error.
* `C76_divide_by_three_refuted`: The pattern tests that the divisor fits in two bits, so (a + b + 1) / 3 is taken for the average: for a = 100 and b = 200 the program computes 100 and the optimized program 150.
* `C76_shift_constant_overflow_refuted`: For shift(v, 2147483647), where every lane must be zero, the compiler's own addition of the lane number overflows.
* `C77_quotes_refuted`: Quotation marks are removed, and white-space between them does not separate arguments, although the documentation says that there is no quoting: the text -DS="a b" is one argument -DS=a b, not two arguments.
* `C77_quoted_file_refuted`: Quoting does not keep an argument from being taken as a response file.
* `C77_cycle_refuted`: A file that names itself is read again and again until no more files can be opened; the last mention of it then stays as an argument, so the compiler is asked to compile a file named @a. Nothing is reported. With two mentions the number of arguments doubles with every file that can be opened.
* `C78_swizzle_lanes_refuted`: The code for a swizzle leaves out the offset of the lanes that the code for single elements adds: a[i].yx of an array of varying vectors gives every program instance the elements of the first one, where a[i].y and a[i].x give it its own.
* `C78_swizzle_arrow_refuted`: p->zyx of a varying pointer to a uniform vector has a uniform type, although the program instances see different vectors and p->z is varying, and its code writes the values of all of them to a temporary that has room for one.
* `C78_sizeof_refuted`: sizeof asks only for the type, and only the first letter is looked at before that: sizeof(v.xq) is accepted.
* `C79_two_definitions_refuted`: The storage class of the first declaration is kept, so that after an extern declaration any number of definitions compile; the variable then starts with the value of the first, while the value of the last is put in place of it at compile time.
* `C79_static_variable_refuted`: extern int a; static int a = 1; compiles, and a is visible to other files.
* `C79_read_only_pointer_refuted`: const uniform float * uniform p; declares a pointer that can be assigned to, but the const among the specifiers puts the pointer itself into read-only memory.
* `C79_extern_c_overload_refuted`: Documented: it is illegal to overload functions declared with extern "C" linkage. When the extern "C" function comes first, an overload is accepted.
* `C79_two_bodies_refuted`: An exported function with the attribute external_only, or compiled with --no-internal-export-functions, has no code for ispc, from which a second definition is recognized: the second definition is ignored without an error.
* `C79_static_function_refuted`: void f(int); static void f(int x) { ... } compiles, and f is visible to other files.
* `C80_uniform_new_rate_refuted`: Documented: uniform new float[10] allocates 10 varying floats, 320 bytes with a gang of 8. The rate of the type is uniform whatever the rate of new: 40 bytes.
* `C80_new_size_refuted`: The size in bytes is computed with 32 bits unless --addressing=64 is given: new float[n] with n = 2^30 + 1 allocates 4 bytes.
* `C80_generic_size_refuted`: The generic library declares the size parameter of posix_memalign as int32 also on 64-bit targets: with --addressing=64 an allocation of 2^32 + 4 bytes yields 4 bytes.
* `C80_uniform_new_failure_refuted`: If there is no memory, uniform new returns whatever was in the variable given to posix_memalign (the result is not looked at and the variable not set before), and stores the initializer there; varying new returns a null pointer and stores nothing.
* `C80_initializer_alignment_refuted`: With elements of 8 bytes it need not be: uniform new varying double(1) on AVX2 with 4 lanes stores to an address that is a multiple of 16 only, with a store for which it has to be one of 32.
* `C81_submit_twice_refuted`: A command list that is submitted twice is executed twice by the GPU and once by the CPU.
* `C81_not_submitted_refuted`: Commands of a list that is never submitted, or reset before, are executed by the CPU.
* `C81_write_before_submit_refuted`: Data that the host writes before it submits the list is not seen by the commands of the list on the CPU.
* `C81_order_of_lists_refuted`: Lists are executed in the order in which they are submitted by the GPU, in the order in which they are filled by the CPU.
* `C81_list_future_refuted`: The future of a launch in a command list does not become valid on the GPU.
* `C81_no_host_memory_refuted`: Copying device memory that has no memory of the host fails on the GPU and is ignored on the CPU.
* `C82_width_refuted`: The blanks at the beginning of a line of the message are not counted: the line is wider than the terminal although it could have been broken.
* `C82_newline_lost_refuted`: White space before a line break removes the line break.
* `C82_silent_failure_refuted`: With --woff and --werror a warning makes the compiler fail, and nothing is printed.
* `C82_quiet_refuted`: --quiet, which only suppresses the output, changes the outcome: with --werror a performance warning makes the compiler fail only without --quiet.
* `C82_pragma_lines_refuted`: A warning for an expression that goes on in the next line is not turned off by the pragma in front of it.
* `C82_stdlib_name_refuted`: There are no performance warnings for a user's file whose name ends in stdlib.ispc.
* `C83_tab_refuted`: A blank that is a tab after the argument is part of the argument.
* `C83_unknown_line_refuted`: After a pragma that is ignored with a warning the line numbers of all messages, and the lines for which pragmas turn off warnings, are too small by one.
* `C83_large_count_refuted`: Counts are taken modulo 2^32: a large one means another one, without a message, or is said to be zero.
* `C83_prefix_refuted`: Words that begin with "unroll" are taken for unroll, with the count 0 and without a message, and so is what follows the count.
* `C84_target_directory_refuted`: A source without extension in a directory with a dot in its name: the rule's target is cut inside the name of the directory. The target of ../kernel is "..o".
* `C84_blank_refuted`: Blanks are written as they are: a header "my header.isph" is read by make as two prerequisites, and the header itself is not among them.
* `C84_not_ascii_refuted`: Octal escapes are not undone: a name with a letter outside ASCII, here é in UTF-8, is listed with six octal digits instead.
* `C84_quote_refuted`: The lexer takes the first quote for the end of the name, also an escaped one: of a name with a quote in it only the part before the quote is listed.
* `C84_flat_escaped_refuted`: The flat list is written without undoing the escapes, unlike the rule: a backslash in a name is doubled in it.
* `C84_library_name_refuted`: The library's files are recognized by their names: a header of the user's own named stdlib.ispc is not listed.
* `C85_wide_unsigned_refuted`: A label that is unsigned and 2^31 or more, such as 4294967295 or an enumerator with that value, is sign-extended when the operand has 64 bits: a switch on the int64 4294967295 does not find it, and the int64 -1 does.
* `C85_wide_duplicate_refuted`: For the same reason two labels that differ are called duplicates: -1 and 4294967295 in a switch on an int64.
* `C85_wide_label_refuted`: A switch on an int64 cannot have the label 2^32: every label must fit into an int, whatever the operand.
* `C85_float_operand_refuted`: A label of type float is an error, but an operand of type float is not, although the guide wants an integer: it is converted to int.
* `C86_documented_seed_refuted`: The seed of the documentation's example, [seed_rng(&state, 1)], is one of the others: the first of the four words is 0 after the first call and for ever, so the generator is weaker than it is said to be.
* `C86_seed_zero_refuted`: With seed 0 three of the four words are 0 for ever, and every number repeats 27 bits of the number before, two places further left: the numbers are not random at all.
* `C86_beef_seed_refuted`: A bad seed also spoils one of the words for the seed 0xbeeff00d, whose second word starts at 0 and stays there.

<!-- end findings -->

Noticed while reading, not turned into theorems:

* `FunctionTemplate::AddInstantiation` (func.cpp:1131-1163) indexes the function's parameters by the index of a template argument in its error path; and a specialization of an `unmasked` template escapes the "already defined" test, because the types compared differ in that flag.
* `lGetExprListConstant` (expr.cpp): the missing elements and the padding of a constant `bool` vector are `i1` constants beside `i8` ones.
* `foreach_active` with a varying `if` and `continue` in its body reaches an assertion in the compiler.
* `PrintStmt::getDoPrintArgs` (stmt.cpp, about line 4087): the branch for a single value looks inverted.
* `cfor`/`cdo`: emitting the body for "all on" asserts that the basic block is not null.
* `AllocMemory` after `Reset` (tasksys.cpp) leaks buffers; `InitTaskSystem` sets `threads` before `reserve`; negative
  launch counts make `Sync` return early; chunks of `TaskInfo` are never freed.
* Short vectors skip short-circuit evaluation.
* `isa.h`: `max_level` is read from cpuid leaf 1, and compared with 24 instead of 0x24; `avx_vnni` leads to the
  AVX2-VNNI target without a check of AVX2, F16C and RDRAND.
* `ISAToTargetString` lacks some instruction sets (RV64GCV, XE2LPG).
* `llvmutil.cpp`: casts from floating point are judged linear; `LLVMFlattenInsertChain` asserts on a zero vector; a
  64-bit `and x, -1`, `% 0` and `1 << shiftAmount` in the analyses overflow; generic gathers read the base address
  for lanes that are off.
* A slice pointer converted to bool, or inside a structure converted to varying, makes the compiler build a null pointer of a
  structure type (expr.cpp, `TypeCastExpr::GetValue`, `lUniformValueToVarying`).
* `__memory_barrier` is declared `readnone` (builtins/util.m4:6099), which allows LLVM to drop or move calls to it.
* In headers, enumerators of 2^31 and above are printed as negative numbers (header.cpp:250), the common header of several
  targets does not include `<stdbool.h>` (1013), and before C99 `bool` becomes `int`, four bytes instead of one (867).
* `lRecursiveCheckValidParamType` swaps its two flags at every level and does not look into references (module.cpp:851).
* Declarations: `int *&r` is a syntax error (`int *(&r)` is accepted); `f(void)` is rejected, unlike in C; a parameter of function type is not made a pointer; arrays of functions and functions that return arrays are not rejected where they are declared; an enumerator cannot refer to an earlier one of the same enumeration; in a structure `int const x` is a syntax error.

## Axioms

`Print Assumptions` says "Closed under the global context" for every theorem named in MANIFEST.json: no axioms are used,
not even those of the standard library. `vcheck` lists seven constants of `Coq.ssr.ssrunder`
(`Under_rel.Under_rel`, `Under_rel.Under_rel_from_rel`, `Under_rel.Under_relE`, `Under_rel.under_rel_done`,
`Under_rel.Over_rel`, `Under_rel.over_rel`, `Under_rel.over_rel_done`): they are parameters of a module type of the
standard library that gets loaded with it, and no theorem here depends on them.
