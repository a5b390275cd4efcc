{"id": "C01", "title": "A trie is a finite map from byte strings to indices", "statement": "After any sequence of dl_trie_insert calls on a freshly initialised trie, dl_trie_find of a key returns the index given by the last insertion of exactly that key, and the not-found value -1 (the initial index for the empty key) when that key was never inserted.", "quantifier": "every sequence of insertions of arbitrary byte-string keys (including empty keys, prefixes, repeated keys) and every looked-up key", "why_tests_cant": "The radix tree splits nodes differently for every insertion order and every pair of shared prefixes; only an induction over histories covers them all.", "anchors": ["DuckLib/trie.c: dl_trie_init, dl_trie_insert, dl_trie_find"]}
{"id": "C02", "title": "A dynamic array behaves as a sequence", "statement": "Any sequence of push, push-many, pop, pop-many, get, set, get-top, set-top, append and clear calls on a dynamic array has the results and the contents of the same operations on a mathematical list; failing operations report bufferUnderflow/invalidValue and change nothing; the allocated capacity always covers the contents.", "quantifier": "every operation history, every element type, both growth strategies", "why_tests_cant": "Contents, length and capacity have to agree after unboundedly many operations in any order.", "anchors": ["DuckLib/array.c: dl_array_init, dl_array_pushElement, dl_array_pushElements, dl_array_popElement, dl_array_popElements, dl_array_getTop, dl_array_setTop, dl_array_get, dl_array_set, dl_array_append, dl_array_clear"]}
{"id": "C03", "title": "Copying an array gives an independent copy", "statement": "After dl_array_copy(dst, src), dst holds the elements of src in memory of its own: later writes to one array are not seen through the other, and the buffer allocated for dst is the one dst uses.", "quantifier": "every source and destination array", "why_tests_cant": "Aliasing shows up only for particular later histories of the two arrays.", "anchors": ["DuckLib/array.c: dl_array_copy"]}
{"id": "C04", "title": "Integers survive being printed and read back", "statement": "For every machine integer n, reading the decimal text that dl_string_fromPtrdiff produces for n with dl_string_ptrdiff conversion gives n back, without undefined arithmetic on the way.", "quantifier": "all 2^64 values of dl_ptrdiff_t", "why_tests_cant": "2^64 values cannot be enumerated, and boundary values are where overflow happens.", "anchors": ["DuckLib/string.c: dl_string_fromPtrdiff, dl_string_toPtrdiff"]}
{"id": "C05", "title": "Integer text has its mathematical value", "statement": "dl_string_toPtrdiff accepts exactly the texts -?[0-9]+ and -?0[xX][0-9a-fA-F]* and returns the value the text denotes whenever that value is representable; every other text is rejected as invalid.", "quantifier": "every byte string of every length", "why_tests_cant": "Strings are unbounded and the accumulator can overflow only for long ones.", "anchors": ["DuckLib/string.c: dl_string_toPtrdiff, dl_string_isDigit, dl_string_isHexadecimalDigit"]}
{"id": "C06", "title": "Natural-number printing is exact", "statement": "dl_string_fromSize prints every size as its decimal digits without leading zeros, and the digits evaluate to the size.", "quantifier": "all values of dl_size_t", "why_tests_cant": "2^64 values.", "anchors": ["DuckLib/string.c: dl_string_fromSize"]}
{"id": "C07", "title": "Sorting returns a sorted permutation", "statement": "quicksort (both partition schemes) and heapsort leave the array a permutation of its input in which the comparator never says that an earlier element is greater than a later one.", "quantifier": "every non-empty array (every array for quicksort) and every comparator that is a total preorder", "why_tests_cant": "Lengths and element orders are unbounded; partition bugs show only on specific patterns of equal elements.", "anchors": ["DuckLib/sort.c: dl_sort_quicksort_hoare, quicksort_lomuto, heapsort, heapify, max_heapify"]}
{"id": "C08", "title": "Garbage collection never loses a live object", "statement": "Collection triggered by any allocation keeps every object reachable from the stack, captured-variable slots, globals and running bytecode, with its identity and contents unchanged.", "quantifier": "every heap graph (including cyclic and shared ones), every root set, every allocation", "why_tests_cant": "Object graphs are unbounded; a missed edge or root loses an object only under particular graphs and allocation schedules.", "anchors": ["duckVM.c: duckVM_gclist_markObject, duckVM_gclist_garbageCollect, duckVM_gclist_pushObject"]}
{"id": "C09", "title": "Garbage collection reclaims every dead object", "statement": "After a collection the free list contains each unreachable object exactly once and no reachable object; hence allocation reports outOfMemory only when every object of the heap is reachable.", "quantifier": "every heap graph and root set", "why_tests_cant": "As above: exactness ranges over all graphs.", "anchors": ["duckVM.c: duckVM_gclist_garbageCollect, duckVM_gclist_pushObject"]}
{"id": "C10", "title": "Allocation never hands out an object in use", "statement": "Every allocation returns an object that was free, so no two live objects share storage, for every interleaving of allocations and collections.", "quantifier": "every history of allocations, root changes and collections", "why_tests_cant": "Needs an invariant over unbounded histories.", "anchors": ["duckVM.c: duckVM_gclist_init, duckVM_gclist_pushObject, duckVM_gclist_garbageCollect"]}
{"id": "C11", "title": "A user object's destructor runs exactly once", "statement": "For a user object that becomes unreachable, the destructor is called at the first collection after that and never again, and never while it is reachable.", "quantifier": "every history of collections", "why_tests_cant": "Double runs depend on later collections that find the slot still free.", "anchors": ["duckVM.c: duckVM_gclist_garbageCollect"]}
{"id": "C12", "title": "Marking terminates on cyclic structures", "statement": "A collection terminates for every heap, including self-referential lists, vectors and closures, in a number of steps linear in the number of references.", "quantifier": "every heap graph", "why_tests_cant": "Non-termination would show only on particular cycles.", "anchors": ["duckVM.c: duckVM_gclist_markObject"]}
{"id": "C13", "title": "Globals form a key/value map", "statement": "After any sequence of global assignments, reading a global gives the value last assigned to that key; keys never assigned report an error; assigning one key does not change another.", "quantifier": "every sequence of assignments over every set of keys", "why_tests_cant": "History-dependent association list.", "anchors": ["duckVM.c: duckVM_global_get, duckVM_global_set"]}
{"id": "C14", "title": "Cyclic list detection is exact", "statement": "The cycle check used when a list is spread into arguments answers 'cyclic' exactly for lists whose cdr chain never ends, and terminates on all lists.", "quantifier": "every cons graph", "why_tests_cant": "Brent's algorithm depends on tail and loop lengths, which are unbounded.", "anchors": ["duckVM.c: duckVM_listIsCyclic"]}
{"id": "C15", "title": "Assembled instructions decode to themselves", "statement": "For every instruction the compiler can emit, the virtual machine decodes the bytes the assembler writes for it into the same operation with the same operands, whichever of the 8, 16 and 32 bit forms was chosen, and continues at the following instruction.", "quantifier": "every instruction class and every operand value in the encodable range", "why_tests_cant": "Three widths times ~60 classes times 2^32 operands, and the width choice is per instruction.", "anchors": ["assembler.c: duckLisp_assemble", "duckVM.c: duckVM_executeInstruction"]}
{"id": "C16", "title": "Integer literals keep their value", "statement": "The integer the program pushes for an integer literal is the literal's value.", "quantifier": "every literal representable in dl_ptrdiff_t", "why_tests_cant": "2^64 values; sign extension has boundaries at each width.", "anchors": ["assembler.c: duckLisp_assemble (pushInteger)", "duckVM.c: duckVM_executeInstruction (pushInteger)"]}
{"id": "C17", "title": "The peephole optimisation does not change what a program computes", "statement": "Replacing 'push x; pop n' and 'pop a; pop b' pairs gives a program that, run from the same machine state, ends with the same stack and the same effects.", "quantifier": "every instruction sequence and every initial machine state", "why_tests_cant": "The optimiser rewrites sequences of any length, with rewrites feeding later rewrites.", "anchors": ["assembler.c: duckLisp_assemble (peephole pass)"]}
{"id": "C18", "title": "Shrinking jumps keeps every jump on its label", "statement": "After jump-size selection every jump, branch, call and closure address, read by the virtual machine, leads to the position of its label in the final byte code.", "quantifier": "every program with any number of labels and references at any distances", "why_tests_cant": "Sizes and distances are mutually dependent; errors occur only near the 8/16 bit boundaries.", "anchors": ["assembler.c: duckLisp_assemble (jump optimisation)", "duckVM.c: duckVM_executeInstruction (jump, brnz, call, pushClosure)"]}
{"id": "C19", "title": "Calls check the number of arguments", "statement": "Calling a closure with the wrong number of arguments is an error that leaves the stack unchanged; calling a variadic closure with at least its required number of arguments puts exactly the extra ones, in order, into its rest list and leaves the required ones and everything below untouched.", "quantifier": "every arity, every argument count, every stack", "why_tests_cant": "Arity and stack contents are unbounded.", "anchors": ["duckVM.c: duckVM_prepareForFuncall"]}
{"id": "C20", "title": "apply spreads its list", "statement": "apply with leading arguments and a proper list calls the function with the leading arguments followed by the list elements in order.", "quantifier": "every list and every argument count", "why_tests_cant": "Lists are unbounded.", "anchors": ["duckVM.c: duckVM_executeInstruction (apply)"]}
{"id": "C21", "title": "Return restores the caller's frame", "statement": "return replaces the callee's arguments and locals by exactly the return value, leaves everything below on the stack untouched and resumes the caller at the instruction after the call.", "quantifier": "every call depth and every stack", "why_tests_cant": "Nesting is unbounded.", "anchors": ["duckVM.c: duckVM_executeInstruction (funcall, return)", "duckVM.c: call_stack_push, call_stack_pop"]}
{"id": "C22", "title": "The value stack and the captured-variable stack stay in step", "statement": "The stack of values and the stack of captured-variable slots have the same length after every instruction and every host API call, whatever happens in between.", "quantifier": "every instruction sequence (valid or not) and every API history", "why_tests_cant": "An invariant over unbounded executions.", "anchors": ["duckVM.c: stack_push, stack_pop, stack_pop_multiple, duckVM_executeInstruction"]}
{"id": "C23", "title": "Closures capture variables, not values", "statement": "All closures that capture the same live local share one variable: an assignment through one is seen by the others and by the enclosing scope, and when the scope ends the variable lives on with its last value.", "quantifier": "every set of closures, every interleaving of reads, writes and scope exits", "why_tests_cant": "Depends on the order of captures, writes and releases.", "anchors": ["duckVM.c: duckVM_executeInstruction (pushClosure, pushUpvalue, setUpvalue, releaseUpvalues)"]}
{"id": "C24", "title": "make-type never repeats a type", "statement": "Two executions of make-type in the life of one virtual machine return different types, none of which is a built-in type.", "quantifier": "every execution history", "why_tests_cant": "Any number of other operations lies between two calls.", "anchors": ["duckVM.c: duckVM_executeInstruction (makeType)", "duckVM.c: duckVM_pushNewType"]}
{"id": "C25", "title": "Composite objects have independent value and function fields", "statement": "make-instance stores type, value and function; composite-value and composite-function read back what make-instance or the last corresponding setter stored; setting one field changes neither the other field nor any other object.", "quantifier": "every object graph and value", "why_tests_cant": "Frame condition over all other objects.", "anchors": ["duckVM.c: duckVM_executeInstruction (makeInstance, compositeValue, compositeFunction, setCompositeValue, setCompositeFunction)"]}
{"id": "C26", "title": "Pairs obey the car/cdr laws", "statement": "car and cdr of cons give its arguments; set-car and set-cdr change exactly that field of exactly that pair.", "quantifier": "every value and heap", "why_tests_cant": "Frame condition over unbounded heaps with sharing.", "anchors": ["duckVM.c: duckVM_executeInstruction (cons, car, cdr, setCar, setCdr)"]}
{"id": "C27", "title": "Vectors are bounds-checked arrays", "statement": "vector and make-vector create vectors of the requested contents; element reads and writes act on the requested element only when 0 <= index < length and report an error otherwise.", "quantifier": "every vector, offset and index", "why_tests_cant": "Index space is 2^64 and aliasing through vector tails is unbounded.", "anchors": ["duckVM.c: duckVM_executeInstruction (vector, makeVector, getVecElt, setVecElt)"]}
{"id": "C28", "title": "Strings obey the sequence laws", "statement": "length, first/rest, substring and concatenate on strings agree with the same operations on byte sequences, for strings that are tails or substrings of other strings too.", "quantifier": "every string and every bound", "why_tests_cant": "Offsets into shared buffers are unbounded.", "anchors": ["duckVM.c: duckVM_executeInstruction (concatenate, substring, length, car, cdr, makeString)"]}
{"id": "C29", "title": "Arithmetic and comparison follow the numeric tower", "statement": "+, -, *, <, > on booleans, integers and floats convert both operands to the larger kind and give the exact integer result whenever it is representable; non-numbers are an error.", "quantifier": "all operand values and kinds", "why_tests_cant": "2^128 operand pairs.", "anchors": ["duckVM.c: duckVM_executeInstruction (mul, add, sub, greater, less)"]}
{"id": "C30", "title": "Division by zero is reported", "statement": "Integer division by zero reports an error instead of undefined behaviour.", "quantifier": "all dividends", "why_tests_cant": "Needs the operation's whole domain.", "anchors": ["duckVM.c: duckVM_executeInstruction (div)"]}
{"id": "C31", "title": "Equality is an equivalence relation", "statement": "On every value that = accepts, it is reflexive, symmetric and transitive; strings are compared by contents and symbols by identity.", "quantifier": "all pairs and triples of values", "why_tests_cant": "Triples of unbounded values.", "anchors": ["duckVM.c: duckVM_executeInstruction (equal)"]}
{"id": "C32", "title": "not and branching agree on truth", "statement": "A conditional takes its then branch on a value exactly when (not value) is false.", "quantifier": "every value the machine can hold", "why_tests_cant": "Ranges over all values of all types.", "anchors": ["duckVM.c: duckVM_executeInstruction (brnz, not)"]}
{"id": "C33", "title": "Symbols are interned", "statement": "Interning the same name twice gives the same identifier, different names give different identifiers, and an identifier is never reassigned.", "quantifier": "every sequence of names", "why_tests_cant": "History of unbounded length.", "anchors": ["duckLisp.c: duckLisp_symbol_create, duckLisp_symbol_nameToValue"]}
{"id": "C34", "title": "Generated symbols are fresh", "statement": "gensym never returns the same name twice (within 2^64 calls) and never returns a name that can be written in source text.", "quantifier": "every number of calls", "why_tests_cant": "2^64 calls.", "anchors": ["duckLisp.c: duckLisp_gensym", "parser.c: isIdentifierSymbol"]}
{"id": "C35", "title": "Names resolve lexically", "statement": "A name refers to the innermost enclosing declaration; a declaration inside the current function is reached through the stack and one outside through a captured variable; declarations in closed scopes are invisible.", "quantifier": "every nesting of scopes and functions and every set of declarations", "why_tests_cant": "Nesting is unbounded.", "anchors": ["duckLisp.c: duckLisp_scope_getLocalIndexFromName, duckLisp_scope_getFreeLocalIndexFromName, duckLisp_pushScope, duckLisp_popScope"]}
{"id": "C36", "title": "Reading a printed expression gives the expression back", "statement": "For every well-formed syntax tree of integers, strings, identifiers and nested expressions, reading its printed text gives the same tree and consumes the whole text.", "quantifier": "every syntax tree", "why_tests_cant": "Trees and texts are unbounded.", "anchors": ["parser.c: parse_compoundExpression, parse_expression, parse_int, parse_string, parse_identifier"]}
{"id": "C37", "title": "Reading enforces the nesting limit", "statement": "An expression nested deeper than the configured limit is rejected with an error and every shallower one is unaffected; the depth counter is back at its old value after each read whether it failed or not.", "quantifier": "every source text", "why_tests_cant": "Source texts are unbounded and every error path has to restore the counter.", "anchors": ["parser.c: parse_compoundExpression"]}
{"id": "C38", "title": "Reading stays inside the source text", "statement": "The reader only looks at bytes inside the given text.", "quantifier": "every byte string", "why_tests_cant": "Out-of-range reads depend on what the text ends in.", "anchors": ["parser.c: parse_irrelevant, parse_float, parse_string", "DuckLib/string.c: dl_string_toDouble", "duckLisp.c: duckLisp_loadString"]}
{"id": "C39", "title": "Compiled core programs compute the value of their source", "statement": "For programs built from literals, local variables, var, setq, operators, if, when, unless, while and nested expressions, executing the compiled code ends with the value the source semantics assigns on top of an otherwise unchanged stack.", "quantifier": "every such program and every initial stack", "why_tests_cant": "Programs are unbounded and loops run for unbounded time.", "anchors": ["generators.c: duckLisp_generator_expression, duckLisp_generator_noscope, duckLisp_generator_createVar_raw, duckLisp_generator_setq, duckLisp_generator_if, duckLisp_generator_when, duckLisp_generator_unless, duckLisp_generator_while", "emitters.c", "duckLisp.c: duckLisp_compile_compoundExpression"]}
{"id": "C40", "title": "The compiler knows the height of the stack", "statement": "At every point of the emitted code the number of locals the compiler assumes equals the number of objects the machine will have on its stack above the function's base.", "quantifier": "every program and every emitted position", "why_tests_cant": "One miscounted emitter makes all later stack references wrong, but only in programs that use it.", "anchors": ["emitters.c: duckLisp_emit_*", "generators.c"]}
{"id": "C41", "title": "Assigning a global always happens", "statement": "setq and global on a global variable emit code that stores the value in that global.", "quantifier": "every program, stack depth and symbol identifier", "why_tests_cant": "Depends on a coincidence between stack depth and symbol number.", "anchors": ["emitters.c: duckLisp_emit_setStatic"]}
{"id": "C42", "title": "Constant conditions are folded consistently", "statement": "A conditional on a literal takes the branch that the machine would take for the literal's value.", "quantifier": "every literal", "why_tests_cant": "Ranges over all literals.", "anchors": ["generators.c: duckLisp_generator_if, duckLisp_generator_when, duckLisp_generator_unless, duckLisp_generator_while", "duckVM.c: duckVM_executeInstruction (brnz)"]}
{"id": "C43", "title": "Operands are evaluated left to right before the operation", "statement": "An operator applied to two expressions computes with the values its operands had when they were evaluated, in order.", "quantifier": "every pair of operand expressions", "why_tests_cant": "Depends on side effects of one operand on the other.", "anchors": ["duckLisp.c: duckLisp_compile_compoundExpression", "generators.c: duckLisp_generator_binaryOperator"]}
{"id": "C44", "title": "Host values round-trip through the stack", "statement": "Pushing a boolean, integer, float, string or symbol through the host API and copying it back gives the same value, and the setters overwrite exactly the top of the stack.", "quantifier": "every value and every stack", "why_tests_cant": "Value spaces are unbounded.", "anchors": ["duckVM.c: duckVM_pushBoolean, duckVM_copyBoolean, duckVM_pushInteger, duckVM_setInteger, duckVM_copySignedInteger, duckVM_pushString, duckVM_copyString, duckVM_pushSymbol, duckVM_copySymbolId, duckVM_copySymbolName"]}
{"id": "C45", "title": "Host element access addresses the requested element", "statement": "duckVM_pushElement and duckVM_setElement read and write the element with the given index of a list or vector.", "quantifier": "every sequence and index", "why_tests_cant": "Sequences and indices are unbounded.", "anchors": ["duckVM.c: duckVM_pushElement, duckVM_setElement"]}
{"id": "C46", "title": "Running bytecode stays alive and addresses the right code", "statement": "While a function from an earlier bytecode runs, its bytecode is a collection root, and closures it creates run that same bytecode.", "quantifier": "every call history across separately loaded bytecodes", "why_tests_cant": "Depends on which bytecode called which.", "anchors": ["duckVM.c: duckVM_executeInstruction (funcall, pushClosure), duckVM_executeWithIp, duckVM_call"]}
{"id": "C47", "title": "Memory blocks handed out never overlap", "statement": "The bundled allocator returns blocks that lie inside its arena and do not overlap any block still allocated; freed memory becomes available again.", "quantifier": "every sequence of malloc, realloc and free", "why_tests_cant": "History-dependent block table.", "anchors": ["DuckLib/memory.c: dl_malloc, dl_free, dl_realloc, splitBlock, mergeBlockAfter, mergeBlockBefore"]}
{"id": "C48", "title": "Memory copies respect overlap", "statement": "dl_memcopy copies the source bytes as they were before the call, for overlapping and disjoint ranges, and changes no byte outside the destination.", "quantifier": "every memory, source, destination and length", "why_tests_cant": "All offsets and lengths.", "anchors": ["DuckLib/core.c: dl_memcopy"]}
{"id": "C49", "title": "Quoting and list building produce the written tree", "statement": "quote of a tree and nested list calls leave a list structure equal to the tree.", "quantifier": "every tree", "why_tests_cant": "Trees are unbounded.", "anchors": ["generators.c: duckLisp_generator_quote, duckLisp_generator_quote_helper, duckLisp_generator_list"]}
{"id": "C50", "title": "Syntax trees survive conversion to objects and back", "statement": "Converting a syntax tree to machine objects for a macro call and converting the objects back gives the same tree.", "quantifier": "every tree", "why_tests_cant": "Trees are unbounded.", "anchors": ["duckLisp.c: duckLisp_astToObject, duckLisp_objectToAST"]}
{"id": "C51", "title": "Instructions are memory safe", "statement": "Executing any instruction, and any byte code, in a consistent machine leaves every pointer leading to a live object of the kind its holder expects, and performs no undefined behaviour.", "quantifier": "every machine state, instruction, operand and execution length", "why_tests_cant": "Heap shapes, aliasing and collection points are unbounded; a dangling pointer usually goes unnoticed.", "anchors": ["duckVM.c: duckVM_executeInstruction, duckVM_executeWithIp, duckVM_gclist_pushObject, duckVM_gclist_garbageCollect"]}
{"id": "C52", "title": "Reading terminates and makes progress", "statement": "Reading any text ends, and every expression that is read successfully consumes at least one byte and no byte behind the end of the text.", "quantifier": "every text, nesting limit and starting index", "why_tests_cant": "Texts are unbounded and a test that does not end proves nothing.", "anchors": ["parser.c: duckLisp_read, parse_compoundExpression, parse_expression, parse_float"]}
{"id": "C53", "title": "Host calls keep the machine consistent", "statement": "Any C code that uses the machine through its public functions leaves every pointer of the machine leading to a live object of the kind its holder expects, keeps the stacks in step, and is not undefined.", "quantifier": "every machine state, host function, argument and sequence of calls", "why_tests_cant": "Call sequences, heap shapes and collection points are unbounded.", "anchors": ["duckVM.c: duckVM_push, duckVM_setGlobal, duckVM_pushComposite, duckVM_pushVector, duckVM_pushFirst, duckVM_pushRest, duckVM_setFirst, duckVM_setRest, duckVM_garbageCollect"]}
{"id": "C54", "title": "Structures built by the host are those the language builds", "statement": "Pairs, lists and composites made and changed through the host functions hold the values they were given, and the host reads from them what a program would.", "quantifier": "every machine state and value", "why_tests_cant": "Aliasing and collection points are unbounded.", "anchors": ["duckVM.c: duckVM_pushCons, duckVM_setFirst, duckVM_setRest, duckVM_pushFirst, duckVM_pushRest, duckVM_length, duckVM_pushComposite, duckVM_setCompositeValue, duckVM_setCompositeFunction"]}
{"id": "C55", "title": "Symbols made at run time are those of the compiler", "statement": "gensym and intern push the symbol whose name and number the compiler uses from then on, or report an error.", "quantifier": "every machine state, symbol table and text", "why_tests_cant": "Names, tables and collection points are unbounded.", "anchors": ["duckLisp.c: duckLisp_callback_gensym, duckLisp_callback_intern"]}
{"id": "C56", "title": "read gives the structure of the text", "statement": "The callback read returns the pair of an object with the structure of the first expression in its text, and 0, or the pair of the empty list and the error of the reader.", "quantifier": "every text and machine state", "why_tests_cant": "Texts, heap shapes and collection points are unbounded.", "anchors": ["duckLisp.c: duckLisp_callback_read, duckLisp_astToObject"]}
{"id": "C57", "title": "Float literals mean what they say", "statement": "A float literal is read as a double with the sign of the literal whose magnitude differs from the written decimal number by no more than the roundings of the conversion.", "quantifier": "every float literal, of any number of digits and any exponent", "why_tests_cant": "The literals are unbounded, and a wrong weight of one digit or a lost sign shows only for some of them.", "anchors": ["parser.c: parse_float", "DuckLib/string.c: dl_string_toDouble"]}
{"id": "C58", "title": "Functions keep to their own part of the stack", "statement": "In compiled code the stack of every function has one height at each instruction whatever path led there, starting from its parameters; every operand is inside the function's part of the stack, every captured variable is one the closure was made with, every jump stays in the function, and a return leaves exactly one value.", "quantifier": "every program, with closures, recursion, rest parameters, loops and branches nested to any depth", "why_tests_cant": "One wrong slot reads or overwrites a variable of the caller, and shows only for some nesting of functions, captures and temporaries.", "anchors": ["generators.c: generator_lambda, generator_defun, generator_funcall, generator_apply, generator_if, generator_while, generator_noscope, generator_expression", "emitters.c: emit_return, emit_pushClosure, emit_releaseUpvalues, emit_funcall", "duckLisp.c: compile_compoundExpression, duckLisp_scope_getLocalIndexFromName, duckLisp_scope_getFreeLocalIndexFromName"]}
{"id": "C59", "title": "Parenthesis inference only puts the parentheses the declarations call for", "statement": "The result of parenthesis inference is a reading of the program in which every identifier is used with a type it was declared with; the atoms of the program and their order are the same.", "quantifier": "every program, every set of external declarations, every behaviour of the scripts", "why_tests_cant": "The programs, types and scripts are unbounded; one misplaced argument changes which call it belongs to.", "anchors": ["parenthesis-inferrer.c: duckLisp_inferParentheses, infer_expression, inferArgument, inferArguments, inferIncrementally, runVm"]}
{"id": "C60", "title": "Parenthesis inference decides", "statement": "Parenthesis inference ends on every program; it succeeds exactly if the program has a reading under the declarations, and the reading is unique.", "quantifier": "every program and set of declarations", "why_tests_cant": "Termination and rejecting only programs without a reading speak about all programs at once.", "anchors": ["parenthesis-inferrer.c: duckLisp_inferParentheses, inferArgument, inferIncrementally"]}
{"id": "C61", "title": "Declarations of the inferrer", "statement": "A declaration gives its name the written type in the innermost scope until the scope ends, and calls of the name get as many arguments as the type says.", "quantifier": "every type, scope nesting and program", "why_tests_cant": "Types and scopes nest to any depth.", "anchors": ["parenthesis-inferrer.c: inferrerTypeSignature_fromAst, interpretDeclare, addDeclaration, findDeclaration, pushDeclarationScope, popDeclarationScope"]}
{"id": "C62", "title": "Parenthesis inference is total, defined and final", "statement": "Parenthesis inference of any tree the reader makes ends, with a result or an error, without undefined behaviour, and inferring the result again changes nothing.", "quantifier": "every program", "why_tests_cant": "Speaks about all programs; the failures show only for rare forms.", "anchors": ["parenthesis-inferrer.c: infer_callback, inferrerTypeSignature_fromAst, inferrerTypeSignature_quit, inferIncrementally"]}
{"id": "C63", "title": "Running functions keep the stack and the calls in order", "statement": "While a compiled program runs, however deep its calls and whatever its closures, every instruction finds exactly the values on the stack the compiler counted on, every call returns to the instruction behind it with the values of its caller untouched, and the values that lay on the stack before the run are there after it.", "quantifier": "every program, every state reached, any depth of calls", "why_tests_cant": "Recursion, variadic calls and closures make the states unbounded; a value too many or too few shows only when a later instruction picks the wrong slot.", "anchors": ["duckVM.c: duckVM_instruction_funcall, duckVM_instruction_apply, duckVM_instruction_return, duckVM_instruction_pushClosure, duckVM_execute", "generators.c: generator_lambda, generator_funcall, generator_apply", "assembler.c: duckLisp_assemble"]}
{"id": "C64", "title": "From the text to the value", "statement": "Loading the text of a program, however it is laid out and spelled, and running the code gives the value the program has by the meaning of the language; texts loaded later see the globals and symbols of those loaded earlier.", "quantifier": "every program and every text written for it, every sequence of texts", "why_tests_cant": "Joins the reader, the compiler, the assembler and the machine: tests can only try some texts, and a disagreement between two of the stages shows only for particular programs.", "anchors": ["duckLisp.c: duckLisp_loadString, duckLisp_compileAST, duckLisp_assemble", "parser.c: duckLisp_read", "duckVM.c: duckVM_execute"]}
{"id": "C65", "title": "The compiler accepts exactly the well formed programs", "statement": "A program in which every form has the operands it asks for is compiled without an error and without undefined behaviour; other programs are rejected.", "quantifier": "every program", "why_tests_cant": "Speaks about all programs at once, and in particular about those nobody has written a test for.", "anchors": ["duckLisp.c: duckLisp_compileAST, compile_expression, compile_compoundExpression", "generators.c: every duckLisp_generator_*", "emitters.c: every duckLisp_emit_*"]}
{"id": "C66", "title": "The disassembly shows the code", "statement": "The disassembly of code has one line for every instruction, in order, with the name, the size and the operands of the instruction; no byte outside the code is read.", "quantifier": "every byte code", "why_tests_cant": "One format that does not match the encoding shifts everything behind the instruction; a test shows only the instructions it happens to contain.", "anchors": ["assembler.c: duckLisp_disassemble", "DuckLib/core.c: dl_nybbleToHexChar"]}
{"id": "C67", "title": "C code can call functions of the language", "statement": "duckVM_call runs the C function, or the body of the closure with its arguments and captured variables, and is left when the body returns, with the calls that were in progress before; a value that is no function and a wrong number of arguments are refused without any change. The program that made the call goes on afterwards, an error leaves the machine usable, and memory is collected as usual.", "quantifier": "every machine, closure, argument count and C callback, any depth of calls", "why_tests_cant": "What goes wrong depends on when the collector runs and on what ran before; a test has memory left and calls once.", "anchors": ["duckVM.c: duckVM_call, duckVM_executeWithIp, duckVM_instruction_prepareForFuncall, duckVM_gclist_markObject"]}
{"id": "C68", "title": "Macros cost nothing to programs without them", "statement": "A program that uses neither macros nor comptime is compiled by the complete compiler, with its second sub-compiler and its machine, to the code and with the errors that its forms have by themselves; whatever was computed while compiling earlier programs makes no difference and is left alone.", "quantifier": "every program, every state of the second sub-compiler and of the machine of the compiler", "why_tests_cant": "The two sub-compilers share names, scopes and functions; interference shows only for particular sequences of programs.", "anchors": ["duckLisp.c: duckLisp_pushScope, duckLisp_popScope, compile_expression, compile_compoundExpression, duckLisp_loadString", "generators.c: every duckLisp_generator_*"]}
{"id": "C69", "title": "comptime computes constants", "statement": "(comptime e) stands for the value of e, computed once, while the program is compiled: the program behaves as if the constant were written in its place, what e does to globals is seen by later forms of this kind, and nothing else is left behind. Errors in e are reported.", "quantifier": "every expression, every place it occurs in, every state of the compiler", "why_tests_cant": "The value goes through the compiler, the assembler, the machine and the conversion back to a tree; tests try some values and some places.", "anchors": ["generators.c: duckLisp_generator_comptime", "duckLisp.c: duckLisp_objectToAST, duckLisp_loadString"]}
{"id": "C70", "title": "A macro call means its expansion", "statement": "A call of a macro is compiled as the expression that the function of the macro gives for the arguments as they are written, wherever the call stands and however many texts have been loaded before.", "quantifier": "every macro, every argument, every place of the call", "why_tests_cant": "The index of the value, the place where it lies and the number of values on the machine have to agree between two compilers and the machine; most places work.", "anchors": ["generators.c: duckLisp_generator_defmacro, duckLisp_generator_macro", "duckLisp.c: duckLisp_addInterpretedGenerator, duckLisp_scope_getMacroFromName, compile_compoundExpression"]}
{"id": "C71", "title": "Functions of a program compute what their bodies say", "statement": "A program that defines functions and calls them, also recursively and as values, computes what its bodies say with the arguments in the place of the parameters; a call with the wrong number of arguments or of something that is no function is an error; and a call leaves nothing behind but its value and its effects on globals.", "quantifier": "every program of function definitions and core forms, every machine state, every depth of recursion", "why_tests_cant": "The code of a body is compiled once, at one height of the stack, and runs at every height the calls lead to; a test follows a few calls of a few functions.", "anchors": ["generators.c: duckLisp_generator_lambda_raw, duckLisp_generator_lambda, duckLisp_generator_funcall", "duckLisp.c: compile_compoundExpression, duckLisp_compileAST", "duckVM.c: duckVM_executeInstruction (funcall, return, pushClosure)"]}
{"id": "C72", "title": "What a host sees of values is what programs see", "statement": "Asking for a part, the length, the emptiness, the first element or the rest of a value answers for every sequence (list, vector, string, or the rest of one) and function what the value is, and changes nothing else; assigning through a function changes exactly the captured variable; popping removes exactly what is asked for; and a question a value has no answer to is refused without any change.", "quantifier": "every machine state, value and index", "why_tests_cant": "Each call treats several kinds of values, with offsets into shared storage and variables that live on the stack or off it; a test asks one value of one kind.", "anchors": ["duckVM.c: duckVM_copy*, duckVM_isEmpty*, duckVM_length, duckVM_pushFirst, duckVM_pushRest, duckVM_setFirst, duckVM_pushElement, duckVM_setElement, duckVM_pushClosureBytecode, duckVM_pop*, duckVM_pushVector"]}
{"id": "C73", "title": "C functions get the arguments programs pass to them", "statement": "When a program calls a C function the host has linked, this function and no other runs, once, with the values of the arguments on the stack in order and above everything that was there, with the globals the arguments have left and the rest of the machine as it was; when it returns the program goes on from what it left, and its error is the error of the program.", "quantifier": "every list of core arguments, every C function, every machine state", "why_tests_cant": "The function is found through the number of a symbol, a table of globals and an object on the heap, between arguments that may allocate, collect garbage and assign; a test calls one function with a few constants.", "anchors": ["generators.c: duckLisp_generator_callback", "duckLisp.c: duckLisp_scope_getFunctionFromName, compile_expression", "duckVM.c: duckVM_executeInstruction (ccall), duckVM_linkCFunction, duckVM_global_get"]}
{"id": "C74", "title": "Linking makes a C function callable under its name, and changes nothing else", "statement": "After a host has linked its C functions, in the compiler before a program is compiled and in a machine afterwards, a call of a name in the program calls the function linked last under that name; all other names, symbols, globals, values and forms of the language are what they were.", "quantifier": "every list of functions and names, every state of compiler and machine", "why_tests_cant": "Compiler and machine are linked separately and agree only through the numbers of symbols, which compiling in between may extend; tests link a few functions once.", "anchors": ["duckLisp.c: duckLisp_linkCFunction, duckLisp_symbol_create, duckLisp_init", "duckVM.c: duckVM_linkCFunction, duckVM_global_set", "scratchwork/example-callbacks.c: the loops that link"]}
{"id": "C75", "title": "Printing an object shows what it is", "statement": "The printer for debugging prints every object of the machine whose parts do not lead back to it, and never follows a bad pointer; two objects with the same text have the same kind, numbers, texts and parts, however deep, and objects that look the same have the same text wherever they are on the heap.", "quantifier": "every well-typed machine and object, of any size and depth; pairs of machines", "why_tests_cant": "The printer recurses through lists, vectors, composites, closures and chains of captured variables on the heap and on the stack; a test prints a few small values and cannot tell whether two others are confused or the recursion ends.", "anchors": ["duckVM.c: duckVM_object_prettyPrint and the printers it calls", "DuckLib/string.c: dl_string_fromSize, dl_string_fromPtrdiff, dl_string_fromUint8"]}
{"id": "C76", "title": "Printing a syntax tree shows what it is", "statement": "Every syntax tree has a text, and two trees with the same text are the same tree.", "quantifier": "every pair of trees", "why_tests_cant": "Two trees are confused only if their texts agree to the last character, which a test sees only if it happens to print both.", "anchors": ["duckLisp.c: duckLisp_ast_compoundExpression_prettyPrint and the printers it calls"]}
{"id": "C77", "title": "Types in the log of the parenthesis inferrer can be read back", "statement": "The text the inferrer logs for a type is a text the reader accepts, and declares the same type when used in a declaration.", "quantifier": "every type, of any depth and width", "why_tests_cant": "Spaces, nested lists and the rest part are written by different branches; a test logs a few types and does not read them back.", "anchors": ["parenthesis-inferrer.c: inferrerTypeSignature_serialize, inferrerTypeSignature_fromAst", "parser.c: the reader"]}
{"id": "C78", "title": "A word in a program means the form registered under it", "statement": "In a compiler as a host gets it, every name at the head of a list leads, through the scopes, the table of C functions and the table of forms, to the function registered last under exactly this name, and every other name to a call of a function of the program; the declarations of the forms for the parenthesis inferrer can be read and give each form as many arguments as its generator accepts. Actions of the reader are found in the same way.", "quantifier": "every table of forms, order of registration and name; every name in the table of the language", "why_tests_cant": "A hundred names with common prefixes share one radix tree, and the index found there selects the function in a separate array; a test tries the names that exist, not the others, and never compares the inferrer's table with the compiler's.", "anchors": ["duckLisp.c: duckLisp_init, duckLisp_addGenerator, duckLisp_addParserAction, duckLisp_scope_getFunctionFromName, duckLisp_compile_expression", "parser.c: runAction", "parenthesis-inferrer.c: duckLisp_inferParentheses"]}
