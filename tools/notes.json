{
 "C21": {
  "note": "All add/sub/div/mul proved for every width and all operands, except saturating_mul(uint64), which does not saturate to the maximum in every overflowing case (refuted with witness; exact when the product fits, see partial theorem)."
 },
 "C22": {
  "note": "Unsigned averages and the generic-target signed averages proved; the m4 targets' signed averages round toward zero (refuted with witness, the value they do compute is the partial theorem)."
 },
 "C27": {
  "note": "8 of 12 fallbacks proved exact; dot4add_u8u8packed, dot4add_i8i8packed_sat, dot2add_i16i16packed_sat, dot2add_u16i16packed_sat deviate from the documented value (refuted with witnesses, partial theorems give the operand ranges where they are right)."
 },
 "C01": {
  "note": "Proved for every program that passes the static check prog_ok (SpmdSpec.v), every width, mask, cost function and state. Missing: programs that fail the check; C01_store_after_continue_refuted shows that the claim is false for one such construct (finding x). The language has one 32-bit type, no pointers, no goto."
 },
 "C02": {
  "note": "Proved for programs that pass prog_ok; refuted for stores to non-static file-scope varying variables at the top level of a function (finding y)."
 },
 "C04": {
  "note": "C04_coherent_same_results_partial: both runs finish. C04_coherent_terminates_partial: if one run finishes, the other does if its program passes the check of SpmdGuard (no uniform loop that could run with all lanes off). C04_termination_refuted: without the check, cif finishes where if never does. Programs pass prog_ok."
 },
 "C05": {
  "note": "For every statement at every point of a checked function."
 },
 "C11": {
  "note": "C11_varying_switch_is_c_switch_partial: functions that start with a varying switch. C11_switch_anywhere_partial: a varying switch at any point of a checked function, nested in other constructs too. Programs pass prog_ok."
 },
 "C12": {
  "note": "Instance of C01 for functions that start with a varying loop; refuted for an unconditional break in a loop with a masked continue (finding a)."
 },
 "C15": {
  "note": "Integer, bool and float reductions over the running instances for any gang size up to 64; float min/max proved when some running instance holds a number (all-NaN case refuted), reduce_equal both implementations; refuted: reduce_equal with nobody running, one-argument reduce_equal overruns its temporary."
 },
 "C17": {
  "note": "rotate (3 implementations), shuffle, shuffle2, broadcast complete; shift via shuffle complete; shift via memory only for |offset| <= gang size, refuted beyond (out of bounds read). The shuffles of twelve x86 targets by permutation instructions (avx1/avx2 x4-x16, avx512 x4-x64) are right for indices in range; those through memory read out of bounds for the index of a lane that is off (refuted)."
 },
 "C18": {
  "note": "store/load/store2 complete, also packed_store_active2 of the avx2-i32x8 target by bit deposit and extract; refuted: the overload taking an explicit active argument ignores the execution mask."
 },
 "C07": {
  "note": "Coverage of the box is proved in full for foreach and foreach_tiled; the claim that the body never runs with every instance off is refuted by a witness (reversed innermost range with a ragged outer dimension) and proved otherwise."
 },
 "C08": {
  "note": "The documented loop has no such limit; the emitted code computes counts and counters with no-signed-wrap arithmetic. Proved: the loop is undefined exactly when such an overflow occurs, and is the exact integer loop otherwise. Two witnesses show ranges inside int32 for which it is undefined."
 },
 "C09": {
  "note": "Proved whenever an instance is active; reached with none (possible by C13's witnesses) the emitted code shifts by 64 and is undefined."
 },
 "C10": {
  "note": "Proved for integer and pointer values and for floating point without NaN; with a NaN the emitted loop never ends (witness theorem)."
 },
 "C45": {
  "note": "The callee is an arbitrary function of its address, mask and the state."
 },
 "C19": {
  "note": "add, or, xor (both implementations), and (m4), swap, varying pointers, compare-exchange (m4, varying pointers) and floating-point operations equal some serial order interleaved with arbitrary actions of other threads; refuted: subtract (all versions), and (generic), compare-exchange (generic: inactive instances exchange too), results of min/max, swap with nobody running. min/max memory effect proved (partial)."
 },
 "C20": {
  "note": "All local atomics in instance order, for at least one running instance; refuted: atomic_swap_local(double) stores old - new."
 },
 "C23": {
  "note": "Software half/float conversions (the branches used when the target has no native converts), all bit patterns; native converts are LLVM intrinsics and out of the model."
 },
 "C46": {
  "note": "Refuted: software rounds ties away from zero, hardware ties to even; they agree off ties."
 },
 "C29": {
  "note": "Refuted for small seeds (seed 0 leaves the first component stuck at 0); proved for all seeds with a non-zero low half-word outside 8 values."
 },
 "C28": {
  "note": "float_to_srgb8 for every float; srgb8_to_float for every int with both roundings of a*b+c."
 },
 "C24": {
  "note": "The byte loops of the Xe branch are proved, uniform and varying, 32 and 64 bit; the other branch is one call of an LLVM memory intrinsic. Varying versions need at least one running lane (see C09)."
 },
 "C25": {
  "note": "Proved for non-Xe targets with at least one running lane and for constant divisors other than 0/-1. Refuted: constant divisor -1 divides INT_MIN in lanes that are off; with no running lane the loop over active lanes is undefined."
 },
 "C30": {
  "note": "llvm.ctlz/cttz/ctpop are modelled by their definition; the lane loops, masking and conversions around them are ispc's."
 },
 "C14": {
  "note": "With --wrap-signed-int, for every expression of the model (arithmetic, comparison, ++, =, /=, /, array reads, calls, &&, ||, ?:), every mask with a running lane and every state, the gang evaluation is defined when C's per-instance evaluation is, and agrees with it on values, variables and calls; lanes that are off keep outer variables and calls. Default nsw arithmetic: proved for expressions without + and ++. Refuted by witness: i++ in an operand the compiler does not short-circuit; an assignment in an arm to a variable of the same control flow depth (stored to all lanes); x /= y in an arm no lane takes. Not modelled: other types, short vectors, pointers."
 },
 "C47": {
  "note": "Proved for --wrap-signed-int (expressions without assignments in short-circuited positions); refuted by witness for the default nsw mode."
 },
 "C32": {
  "note": "Atomic, enum and short-vector operands: symmetric, varying iff an operand is, documented precedence. Missing because false: float16 beside a 32-bit integer, enum beside a small integer, pointers to const (refuted with witnesses)."
 },
 "C33": {
  "note": "Mangling is decodable: equal symbols give equal kinds, template arguments and parameters up to what the symbol leaves out; exact for ordinary parameter types. Missing because false: result types of function pointers, const pointers, unnamed enums, names containing _5D_, functions named like template instances (all refuted with witnesses)."
 },
 "C34": {
  "note": "Independent of declaration order for any costs; the chosen function is cheapest; without templates and up to 103 arguments the three outcomes are characterised exactly; documented order for atomic types. Missing because false: exact function beside two templates, references against const, widening that loses values, 104 arguments (refuted)."
 },
 "C48": {
  "note": "Proved for all types of the model; symbols for types without soa pointers (a type no program can declare)."
 },
 "C49": {
  "note": "Proved for all types of the model except an array becoming a pointer, which is checked element-wise elsewhere."
 },
 "C41": {
  "note": "The symbol table is modelled as the vector of scopes it is, with every operation sequence a program can make; lookups are related to the declarations in force by an independent definition over the history."
 },
 "C50": {
  "note": "StringEditDistance, with its early exit, is proved equal to the least number of edits whenever that is within the limit, for all strings and limits; suggestions and option matches are characterised exactly."
 },
 "C44": {
  "note": "Proved for every literal that some permitted type can hold, except decimal literals of several digits with a leading zero and unsuffixed foreach bounds in 2^31..2^32-1. Refuted for those, and for literals that no permitted type can hold (accepted silently)."
 },
 "C51": {
  "note": "Proved for all strings without hexadecimal escapes; hexadecimal escapes are refuted."
 },
 "C52": {
  "note": "Comments are proved for all texts; #pragma is refuted at the end of a file that has no final line end (the scanner loops forever)."
 },
 "C53": {
  "note": "Exact for at most 13 fraction digits and exponents -1022..1023, proved through the IEEE operations the parser performs. Refuted below: 0x1p-1030 is read as zero."
 },
 "C03": {
  "note": "gang terminates => instances do, for prog_ok programs; the converse for programs that also pass SpmdGuard.guarded_call. Missing: the converse for programs rejected by the check, two of which are shown not to terminate."
 },
 "C13": {
  "note": "every effect has an active instance, for programs that pass SpmdGuard.guarded_call; four programs that break the claim. Missing: predication of expressions is in C14; programs rejected by the check."
 },
 "C38": {
  "note": "Proved of a small-step model of the pthreads task system for every schedule, any number of worker threads and launches, when all launches are made from one thread outside of tasks (nested launches come from worker threads). For launches from any number of threads the same theorems are proved under the hypothesis that no compare-and-swap in AllocTaskGroup failed (_any_threads_partial); without it sync can return early (refuted), as after launch[0] (refuted)."
 },
 "C39": {
  "note": "For power-of-two alignments and size plus alignment at most 2^30, over any number of uses and syncs of the group. Requests of 2^31 bytes overrun the buffer and a seventeenth buffer fails an assertion (refuted)."
 },
 "C54": {
  "note": "Holds when no loop has a return before a launch in its text, and always in the copy of the body for a mask that is not all on. A return before a launch in a loop misses the sync (refuted). switch and goto are not modelled."
 },
 "C55": {
  "note": "The range is proved under the hypotheses of C38; uniqueness fails because a thread in sync runs tasks with index 0 (refuted)."
 },
 "C31": {
  "note": "Integer, bool, select, comparison and conversion folding agree with the emitted instructions; refuted corners: int64 to float rounded twice, INT_MIN/-1 traps in the compiler, host UB, varying uint16 negation asserts. Folding of floating-point + - * / is by the same IEEE operations and not modelled separately."
 },
 "C42": {
  "note": "x86 dispatch on Linux/Windows register checks; the macOS variant of the OS checks appears in the model but soundness is proved for the other systems. AVX2VNNI on AVX-512 hosts, Knights Landing, FMA and unordered loads are refuted with concrete machines."
 },
 "C57": {
  "note": "All tables (names, constructor, TargetToISA, parent map) are generated from the sources; a full-featured build (ARM, PPC64, RISC-V, WASM, Xe enabled) is modelled."
 },
 "C43": {
  "note": "-nozmm names, empty list entries and linux/custom_linux are refuted."
 },
 "C40": {
  "note": "The full property is false of the code: task queues delete retained futures, statically linked modules share library handles, wrapper assignment and IntrusivePtr move assignment leak, and copying an empty wrapper dereferences null (the _refuted theorems).  The _partial theorems exclude exactly those uses and otherwise cover every history of API calls, of wrapper operations and of pointer operations; C40_threads covers every interleaving of threads.  CPU device only (the GPU device needs Level Zero)."
 },
 "C37": {
  "note": "Proved: the address computed from base, scale, varying and constant offsets is the pointer, with 64-bit offsets and (when both offsets fit an int) with 32-bit addressing, and moving further constants keeps it, under room: sums and products that are widened do not leave the narrow type however grouped. Missing: in general it is false; refuted are an unsigned index that wraps, regrouping of signed sums, flags copied to a shift, a factor above 2^32, and three cases of 32-bit addressing. Left out of the model: extractvalue/insertvalue, shuffles of two vectors."
 },
 "C58": {
  "note": "Proved for the compiler's analyses when no vector is carried round a loop, and for loops of any length for the analysis that remembers what it assumed of each PHI node; constants as described by tame, no jumps of half the range under a widening. Missing: the compiler's own analysis forgets what it assumed, and is refuted on loops in three ways, and on constants, inner casts and narrow indices that wrap in four more."
 },
 "C59": {
  "note": "Proved for 64-bit offsets, and for 32-bit ones that stay in the range of an int, with the conditions of C58 and no vector carried round a loop. Refuted: the scalar load is done with all lanes off; 32-bit whole offsets wrap. Left out of the model: the choice of element types and alignment."
 },
 "C36": {
  "note": "Proved for masks of at most the target's width (select, blend, masked load/store with a known mask, movmsk) and for masks of booleans whose first elements are on (plain store/load of the first part). Partial: the _refuted theorems show selects wider than the target judged by their first lanes, an assertion with more than 64 elements, AVX masked loads with all lanes off turned into poison instead of zero, undef elements skipped in a prefix mask, and lane 3 getting the wrong pass-through value for three-element prefixes."
 },
 "C35": {
  "note": "Proved: selection of loads, their values, assembly of the vectors, grouping within a basic block, absence of new page faults. Partial: the values theorem needs offsets that are multiples of four and not negative in 32-bit gathers, no 32-bit overflow of the scaled offset, width 4/8/16 (32/64 only for single gathers), no memory barrier between the gathers, and (for LLVM's poison) no pair insertion into a half-done vector; each of these is shown necessary by a _refuted theorem."
 },
 "C60": {
  "note": "Layout, addresses, programs of reads and assignments, pointer arithmetic, gathers and scatters proved for all types, widths and indices. Arrays of arrays, pointers into member arrays and varying uint32 indices above 2^31 are refuted."
 },
 "C61": {
  "note": "Exact output, including where it is cut off, for every format and values whose texts fit the 1024-byte buffer; longer varying values overflow the buffer (proved for all, refuted with a witness). Varying booleans of instances that are off print as underscores. Xe: complete."
 },
 "C62": {
  "note": "Both implementations, every mask representation. On Xe the message of a failed assertion is used as a printf format (refuted)."
 },
 "C63": {
  "note": "Every pair of basic types, uniform and varying, scalars, short vectors, splats, structures, pointers, enumerators. Missing from the partial theorem: a uniform value converted to a uniform short vector of bool, where the compiler fails an assertion (refuted). Floating point to integer conversions of values out of range yield poison and are excluded, as in LLVM. Slice pointers and reference casts are not modelled; Xe's own bool handling neither."
 },
 "C64": {
  "note": "Initializers of basic types, short vectors, arrays and structures at any nesting: the value in memory, each expression evaluated exactly once, errors for wrong lengths and types, unsized dimensions. Missing: uniform vector lists of non-constants that are too short, have nested braces, bool elements or a lone value of another type (refuted), enumerations, pointers, references and soa types."
 },
 "C65": {
  "note": "Sizes, alignments and offsets of members, elements and lanes agree for structures of basic types, enumerations, pointers, uniform short vectors, arrays and structures at any nesting, uniform, varying or soa, on targets with naturally aligned vectors; members are inside and do not overlap. Missing: varying enumerations, pointers and vectors as members, arrays of varying structures, explicitly aligned and empty structures, 32-bit ARM (refuted)."
 },
 "C66": {
  "note": "Every structure is declared, after what its members need, and stays after preprocessing. Missing: soa structures, arrays of varying structures, varying vectors, enumerations and vectors in explicitly exported structures, common header of several targets (refuted); function declarations themselves."
 },
 "C67": {
  "note": "Views of one pool and direct allocations; the sizes views report only grow (refuted that they stay the same); views for a device instead of a context with a pool hint dereference a null pointer (refuted). Not modelled: threads, the bound of 2^30 as an integer type, lifetime of contexts."
 },
 "C68": {
  "note": "Order, results, futures, progress and limits are proved for every schedule of the device. C68_sync_partial: with a copy engine only for batches whose last commands are waited for. Refuted: with several command lists barriers do not order copies (C68_barrier_copy_refuted, C68_barrier_host_refuted, C68_copy_view_refuted); with a copy engine sync returns too early (C68_sync_copy_refuted, C68_sync_kernel_refuted); C68_dims_partial: sizes of launches that are multiples of the suggested group size and below 2^32, otherwise C68_dims_refuted."
 },
 "C69": {
  "note": "Deduction for parameters of the shapes pointers to T, references to these and T<N>; other shapes, kinds of explicit arguments, types of numbers, return types of specializations and late explicit instantiations are refuted."
 },
 "C70": {
  "note": "Proved for the whole range in which adding the constant works: float on sse2/wasm up to 2^23, double on Xe up to 2^53-4.5036e15, float16 for all values; infinities and NaN for round. Refuted beyond: from 2^23 on odd floats change, just beyond the bound doubles on Xe change, sse2/wasm double rounds half-way cases away from zero, Xe trunc is poison from 2^53 on, signs of zero are lost. Hardware rounding instructions are not modelled."
 },
 "C71": {
  "note": "ldexp and frexp proved for normal numbers (and zero without fast math), they are inverses; abs, signbits and classification proved for all values of all three formats. Refuted: overflow, underflow, infinity, denormals, zero for frexp and fast ldexp, integer abs of the least value."
 },
 "C72": {
  "note": "Special arguments proved for any rcp and trunc. Refuted: infinity by infinity, wrong remainders even with correctly rounded rcp and exact trunc, denormal y, and the sign of NaN shared between lanes."
 },
 "C73": {
  "note": "min, max, clamp proved for numbers including infinities for every definition in the table (all targets except Xe float/float16, which use intrinsics, and generic ones). Refuted: uniform and varying versions disagree when an argument is NaN."
 },
 "C74": {
  "note": "Proved for declarations with built-in types, structures and enumerations as atoms, void, typedefs, const/uniform/varying, pointers, references, arrays, functions and abstract declarators; left out: signed/unsigned, short vectors, soa, storage classes, attributes and function qualifiers. The theorems named _partial exclude typedef names for void or references, typedef names with a variability that are not the last specifier, abstract declarators with a qualified or repeated pointer before an array, and unnamed function parameters: there the compiler does something else (the _refuted theorems)."
 },
 "C75": {
  "note": "Proved for programs without casts that do not call memset (any function taking void *), declare no reference to a const pointer or to an array of const pointers, and have no structure member that is an array of structures with const members; the four gaps are refuted with programs that compile without a warning. Variability, short vectors, SOA, function pointers, new/delete and functions returning references are not in the model."
 },
 "C76": {
  "note": "Proved for all expressions without a division by 3 (and without the no-op constants /1 and +0 that InstCombine removes before). The pattern accepts a divisor of 3, refuted with a witness; a constant shift near 2^31 overflows the compiler's int, refuted with a witness."
 },
 "C77": {
  "note": "Texts with quotation marks are read with quoting, contrary to the documentation (refuted); C77_quoting shows that with it every list of arguments can be written. Files that name themselves are refuted. NUL characters in files are excluded."
 },
 "C78": {
  "note": "Swizzles through varying pointers read the wrong lane or overrun a temporary (two refutations); sizeof of an invalid swizzle is accepted (refuted). soa<> vectors and bool storage are not modelled."
 },
 "C79": {
  "note": "Refuted parts: after an extern declaration any number of definitions compile, with different stored and compile-time values; static on a later declaration is lost; const in the specifiers of a pointer puts the pointer into read-only memory; overloads of an extern \"C\" function declared first are accepted; second bodies of external_only functions are ignored silently. Partial theorems prove the rest."
 },
 "C80": {
  "note": "Refuted parts: uniform new float[10] allocates uniform floats, not varying ones as documented; the size wraps at 32 bits by default; the generic library passes 32-bit sizes on 64-bit targets; uniform new returns an undefined pointer and stores the initializer through it if there is no memory; the initializer of a varying 8-byte type is stored with more alignment than the block has."
 },
 "C81": {
  "note": "C81_same_partial is for programs that keep the rules of PortSpec.v (data copied before use, views in use not touched, one list filled at a time and submitted once). Without them the devices differ: C81_submit_twice_refuted, C81_not_submitted_refuted, C81_write_before_submit_refuted, C81_order_of_lists_refuted, C81_list_future_refuted, C81_no_host_memory_refuted. Not modelled: commands of one list that the GPU executes out of order (C68 for the task queue), views of the same application memory, times of futures."
 },
 "C82": {
  "note": "Proved: C82_words, C82_fails, C82_printed, C82_order for all messages, options, pragmas and findings. Refuted: wide lines after blanks, lost line breaks, failure without a message for --woff --werror, --quiet that changes the outcome, pragmas before findings that span lines, files named like the library. Not modelled: colours in the heading, the lines of the source file after a message, the parser of the pragma."
 },
 "C83": {
  "note": "Proved: C83_unroll, C83_ignore (equivalence), C83_ignore_effect, C83_zero for all texts. Partial: counts below 2^31, line numbers without unknown pragmas. Refuted: line numbers after an unknown pragma, large counts, words that begin with unroll, a tab after the argument. Not modelled: columns, and which statements take the attribute. A pragma on a last line without line end is in C52."
 },
 "C84": {
  "note": "For names of plain characters the rule read as make reads it is the target with every file exactly once (C84_rule_partial), also the flat list; the text of the rule is given for every name the preprocessor carries (C84_rule_text_partial). Names with blanks, quotes, bytes outside ASCII, backslashes in the flat list, and a user's own stdlib.ispc are refuted."
 },
 "C85": {
  "note": "For operands of at most 32 bits, and for 64 bits with labels that an int holds, the label taken is C's (C85_narrow_partial, C85_wide_partial). Refuted: unsigned labels of 2^31 and more with a 64-bit operand (wrong label, and called duplicates of negative ones), labels of more than 32 bits, float operands."
 },
 "C86": {
  "note": "range and instances complete; exactly which seeds give a state that meets the condition of the algorithm, and that it holds for ever from them; refuted: the documented seed 1 and seeds 0 and 0xbeeff00d lose words of the state, seed 0 repeats 27 bits of each number. Missing: the length of the sequence."
 }
}