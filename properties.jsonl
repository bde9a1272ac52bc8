{"id": "C01", "title": "Opcode byte codec", "statement": "Converting an instruction to its byte and back gives the same instruction; different instructions have different bytes; every byte that is not the code of an instruction is rejected (panic) rather than read as some other instruction.", "quantifier": "all instructions and all 256 byte values", "why_tests_cant": "A test can forget an instruction or a byte; the claim is a bijection between the enum and an initial segment of the bytes.", "anchors": ["dice-bytecode/src/instruction.rs:Instruction", "dice-bytecode/src/instruction.rs:From<u8>"]}
{"id": "C02", "title": "Operand and jump-offset codec", "statement": "A 16-bit jump offset written by the assembler is read back unchanged by the bytecode cursor, and applying it moves the cursor to exactly (position after the operand) + offset.", "quantifier": "all i16 offsets, all surrounding code and cursor positions", "why_tests_cant": "65536 offsets times arbitrary code around them; sign handling errors show only for some values.", "anchors": ["dice-bytecode/src/cursor.rs:BytecodeCursor", "dice-compiler/src/assembler.rs:put_i16"]}
{"id": "C03", "title": "Bytecode is uniquely decodable", "statement": "Any sequence of instructions with operands, laid out as bytes by the assembler, is read back by the cursor as exactly that sequence, and the disassembler visits exactly the same instruction boundaries.", "quantifier": "all instruction sequences of any length with any operands", "why_tests_cant": "Operand widths are implied in three places (assembler, VM, disassembler); a mismatch only shows for sequences containing the mismatched opcode followed by something else.", "anchors": ["dice-compiler/src/assembler.rs:Assembler", "dice-bytecode/src/cursor.rs", "dice-bytecode/src/lib.rs:Display for Bytecode", "dice-runtime/src/interpreter/mod.rs:execute"]}
{"id": "C04", "title": "Constant pool", "statement": "The index returned when a constant is added always refers to an equal constant in the finished bytecode whatever is added later; equal constants share one index; a pool never has an index above 255: the 257th distinct constant is a compile error.", "quantifier": "all histories of constant additions", "why_tests_cant": "Depends on the whole history of additions, unbounded in length.", "anchors": ["dice-compiler/src/assembler.rs:make_constant"]}
{"id": "C05", "title": "Jump patching", "statement": "A forward jump that is patched after emitting more code transfers control exactly to the end of the code present at patch time, and a backward jump exactly to the recorded loop start, for every distance that fits the 16-bit offset. (Beyond that distance the offset is silently truncated: recorded as a refutation of the unrestricted claim.)", "quantifier": "all code prefixes, all code emitted between the jump and the patch, all distances", "why_tests_cant": "Arbitrary code sizes; boundary at 32767 bytes.", "anchors": ["dice-compiler/src/assembler.rs:jump", "dice-compiler/src/assembler.rs:patch_jump", "dice-compiler/src/assembler.rs:jump_back"]}
{"id": "C06", "title": "Local slot allocation", "statement": "At every moment of compilation all variables in scope of one function occupy pairwise different slots, every slot is smaller than the slot count recorded for the function, and variables of enclosing scopes keep their slots when inner scopes are opened and closed.", "quantifier": "all sequences of scope push, scope pop and variable declarations", "why_tests_cant": "The number of nested/sequential scopes is unbounded; clashes only appear for particular nestings.", "anchors": ["dice-compiler/src/scope_stack.rs:ScopeStack::add_local_impl", "dice-compiler/src/scope_stack.rs:push_scope", "dice-compiler/src/scope_stack.rs:pop_scope"]}
{"id": "C07", "title": "Lexical name resolution", "statement": "A name resolves to the most recent declaration in the innermost open scope that declares it; declarations in closed scopes are invisible and shadowing ends when the inner scope closes.", "quantifier": "all scope histories and names", "why_tests_cant": "Quantifies over all nestings and shadowing patterns.", "anchors": ["dice-compiler/src/scope_stack.rs:local", "dice-compiler/src/visitor/literal_variable.rs"]}
{"id": "C08", "title": "Upvalue resolution", "statement": "A name not declared in the current function resolves to the binding of the nearest enclosing function that declares it; following the chain of capture descriptors from the use leads to exactly that variable's slot, the variable is marked captured, mutability is preserved, and repeated uses share one capture index.", "quantifier": "all stacks of enclosing functions of any depth and all names", "why_tests_cant": "Closure nesting depth is unbounded; capture lists depend on order of uses.", "anchors": ["dice-compiler/src/compiler_stack.rs:resolve_upvalue", "dice-compiler/src/compiler_stack.rs:add_upvalue", "dice-compiler/src/upvalue.rs"]}
{"id": "C09", "title": "Immutability is enforced at compile time", "statement": "A program that assigns (plainly or with a compound operator) to a variable that was not declared mut, whether a local or captured from an enclosing function, is rejected with the immutable-reassignment error before any code for the assignment is emitted; assignment to an undeclared name is rejected.", "quantifier": "all programs and scopes at the point of the assignment", "why_tests_cant": "All nestings of closures/scopes and all assignment operators.", "anchors": ["dice-compiler/src/visitor/expr_assignment.rs", "dice-compiler/src/scope_stack.rs:ScopeVariable::is_mutable"]}
{"id": "C10", "title": "Compiled bytecode is well formed", "statement": "Whenever compilation of a program succeeds and the emitted function is within the format's size limits, the bytecode of it and of all functions nested in its constants decodes completely into instructions, every jump lands on an instruction boundary inside the code, every constant index is in range and of the kind its instruction needs, every local slot is below the slot count and every upvalue index below the upvalue count.", "quantifier": "all syntax trees", "why_tests_cant": "Infinitely many programs; the invariant is global over the code generator.", "anchors": ["dice-compiler/src/visitor", "dice-compiler/src/compiler.rs", "dice-compiler/src/assembler.rs"]}
{"id": "C11", "title": "VM stack is a LIFO stack with cleared garbage", "statement": "Push, pop, pop-n, peek, swap, reserving and releasing frames behave like the corresponding operations on an unbounded list as long as the 65536-cell limit is respected; cells above the stack pointer are always null, exceeding the limit or popping an empty stack is a panic.", "quantifier": "all sequences of stack operations", "why_tests_cant": "Arbitrary operation histories.", "anchors": ["dice-runtime/src/stack/mod.rs:Stack", "dice-runtime/src/stack/frame.rs:StackFrame"]}
{"id": "C12", "title": "Calling convention", "statement": "Calling a script function with n arguments runs it in a frame whose slot 0 holds the callee (or the receiver of a bound method), slots 1..n the arguments in order and whose remaining local slots are null; when it returns, the caller's stack is exactly what it was before the callee and arguments were pushed, plus the result.", "quantifier": "all stacks, functions, argument counts (fewer or more than declared) and bodies that return", "why_tests_cant": "All argument counts vs slot counts and all stack contents.", "anchors": ["dice-runtime/src/interpreter/helper.rs:call_fn_script", "dice-runtime/src/interpreter/helper.rs:call_fn"]}
{"id": "C13", "title": "Expressions leave exactly one value", "statement": "Evaluating any expression of the language pushes exactly one value on the VM stack and disturbs nothing below it. (Proved for the sub-language without the constructs for which it is false; the counterexamples are recorded as refutations.)", "quantifier": "all programs, all stack contents", "why_tests_cant": "All syntax trees and all runtime states.", "anchors": ["dice-compiler/src/visitor", "dice-runtime/src/interpreter/mod.rs"]}
{"id": "C14", "title": "Compilation preserves meaning", "statement": "Running the compiled bytecode of a program gives the same result value, the same final variable values, or the same runtime error, as the direct evaluation of its syntax tree.", "quantifier": "all programs of the modelled sub-language and all inputs", "why_tests_cant": "Semantic equivalence over all programs and states.", "anchors": ["dice-compiler/src/visitor", "dice-runtime/src/interpreter/mod.rs"]}
{"id": "C15", "title": "Control-flow keywords are accepted only where they make sense", "statement": "break and continue outside a loop, return outside a function, a value returned from a constructor, !! outside a function or method, super outside a method or constructor, and export outside a module's top level are compile errors.", "quantifier": "all programs and positions", "why_tests_cant": "Any nesting of blocks, functions and loops around the keyword.", "anchors": ["dice-compiler/src/visitor/expr_break.rs", "dice-compiler/src/visitor/expr_continue.rs", "dice-compiler/src/visitor/expr_return.rs", "dice-compiler/src/visitor/expr_error_propagate.rs", "dice-compiler/src/visitor/expr_super_access.rs", "dice-compiler/src/visitor/decl_export.rs"]}
{"id": "C16", "title": "Short-circuit evaluation", "statement": "&& and || evaluate the right operand only when the left does not decide, yield a bool or a type error; ?? evaluates the right operand only when the left is null and otherwise yields the left value.", "quantifier": "all operand expressions and states", "why_tests_cant": "Operands are arbitrary programs with effects.", "anchors": ["dice-compiler/src/visitor/expr_binary_op.rs", "dice-runtime/src/interpreter/mod.rs:jump_if_false"]}
{"id": "C17", "title": "Integer arithmetic", "statement": "Integer +, -, * and unary - give the exact mathematical result when it fits in 64 bits (otherwise a panic in debug builds and the wrapped result in release builds); / truncates toward zero and % has the sign of the dividend with (a/b)*b + a%b = a; a zero divisor is the divide-by-zero error and never a panic.", "quantifier": "all pairs of 64-bit integers", "why_tests_cant": "2^128 operand pairs.", "anchors": ["dice-runtime/src/interpreter/mod.rs:add", "dice-runtime/src/interpreter/mod.rs:div", "dice-runtime/src/interpreter/mod.rs:rem"]}
{"id": "C18", "title": "Comparison operators are coherent", "statement": "On two ints or two bools exactly one of <, ==, > holds, <= is (< or ==), >= is (> or ==), != is the negation of ==, with false < true; on floats the operators follow IEEE-754 (NaN compares false, != is still the negation of ==).", "quantifier": "all pairs of values of the primitive kinds", "why_tests_cant": "All 64-bit pairs, NaN/infinities/zeros.", "anchors": ["dice-runtime/src/interpreter/mod.rs:gt", "dice-runtime/src/interpreter/mod.rs:eq"]}
{"id": "C19", "title": "Value equality", "statement": "Host-level value equality is symmetric and transitive, never holds between values of different kinds, and is reflexive except on NaN, native functions, bound methods and arrays that contain such values.", "quantifier": "all values and heaps", "why_tests_cant": "Unbounded value structures.", "anchors": ["dice-runtime/src/value.rs:PartialEq for Value"]}
{"id": "C20", "title": "Captured variables are shared", "statement": "All closures created over one live variable, and the function owning it, see each other's assignments, before and after the variable's scope ends; variables captured from different activations are independent.", "quantifier": "all interleavings of closure creation, reads, writes and scope exits", "why_tests_cant": "Arbitrary operation histories over upvalues.", "anchors": ["dice-runtime/src/interpreter/mod.rs:create_closure", "dice-runtime/src/interpreter/mod.rs:close_upvalue", "dice-runtime/src/interpreter/helper.rs:find_open_upvalue", "dice-runtime/src/upvalue.rs"]}
{"id": "C21", "title": "Captured variables survive every kind of function exit", "statement": "A variable captured by a closure keeps its last value for that closure after the function returned, whichever way it was left (end of body, return, !!). (Refuted: only the end of the block emits the closing instruction.)", "quantifier": "all functions and all exits", "why_tests_cant": "All control-flow paths.", "anchors": ["dice-compiler/src/visitor/expr_return.rs", "dice-compiler/src/visitor/expr_error_propagate.rs", "dice-compiler/src/visitor/expr_block.rs"]}
{"id": "C22", "title": "Globals are write-once", "statement": "Once a global has a value every later read gives that value and every later definition of the same name is an error that leaves it unchanged; reading an undefined global is an error.", "quantifier": "all histories of global definitions and reads", "why_tests_cant": "All histories.", "anchors": ["dice-runtime/src/interpreter/mod.rs:store_global", "dice-runtime/src/interpreter/mod.rs:load_global"]}
{"id": "C23", "title": "A module body runs at most once", "statement": "However often and in whatever (possibly cyclic) pattern modules are imported, the loader is asked for a given module and its body started at most once per runtime, and every import of it yields the same export object.", "quantifier": "all import graphs, including cyclic, and all import sequences", "why_tests_cant": "All graphs and histories.", "anchors": ["dice-runtime/src/interpreter/mod.rs:load_module", "dice-runtime/src/runtime.rs:run_module"]}
{"id": "C24", "title": "A failed import is reported again", "statement": "If loading or running a module failed, a later import of the same module must not silently succeed. (Refuted: the empty export object stays registered.)", "quantifier": "all failure points during a load", "why_tests_cant": "Crash/failure points during load.", "anchors": ["dice-runtime/src/interpreter/mod.rs:load_module"]}
{"id": "C25", "title": "Class hierarchy", "statement": "x is C holds for exactly the instances whose class is C or was derived, directly or transitively, from C: the relation is reflexive and transitive, never holds between unrelated classes and is unaffected by later class creations.", "quantifier": "all class creation histories", "why_tests_cant": "Arbitrary hierarchies.", "anchors": ["dice-runtime/src/value/class.rs:with_base", "dice-runtime/src/value/class.rs:is_class", "dice-runtime/src/interpreter/mod.rs:is"]}
{"id": "C26", "title": "Method inheritance", "statement": "At derivation a class gets the methods its base has at that moment except `new`; defining or overriding a method in the derived class never changes the base or siblings, and later changes to the base do not reach the derived class.", "quantifier": "all histories of class derivation and method definition", "why_tests_cant": "Histories and hierarchies.", "anchors": ["dice-runtime/src/value/class.rs:with_base", "dice-runtime/src/value/class.rs:set_method"]}
{"id": "C27", "title": "Static fields belong to one class", "statement": "Storing a static field on a derived class does not change its base class and vice versa. (Refuted: the field table is shared by the derived class.)", "quantifier": "all histories of class derivation and static field writes", "why_tests_cant": "Histories.", "anchors": ["dice-runtime/src/value/object.rs:deep_clone", "dice-runtime/src/value/class.rs:with_base"]}
{"id": "C28", "title": "Type annotations are enforced", "statement": "After the check emitted for an annotated variable, parameter or return value succeeds, the value is an instance of the annotated class (or null exactly when the annotation is nullable); otherwise an error is raised and execution does not continue past the check.", "quantifier": "all values, classes and annotations", "why_tests_cant": "All values and class hierarchies.", "anchors": ["dice-runtime/src/interpreter/mod.rs:assert_type_for_local", "dice-runtime/src/interpreter/mod.rs:assert_type_and_return", "dice-compiler/src/visitor/decl_var.rs", "dice-compiler/src/visitor/expr_block.rs"]}
{"id": "C29", "title": "Array indexing", "statement": "Reading an array at i yields the i-th element when 0 <= i < length and null otherwise; after storing at an index in range, reading that index yields the stored value, and all other elements and all other arrays are unchanged; out-of-range stores never modify anything.", "quantifier": "all arrays, indices and histories of stores", "why_tests_cant": "All index values and lengths.", "anchors": ["dice-runtime/src/interpreter/mod.rs:load_index", "dice-runtime/src/interpreter/mod.rs:store_index", "dice-runtime/src/value/array.rs"]}
{"id": "C30", "title": "Object fields", "statement": "Reading a field of an object after a sequence of field stores gives the last value stored under that name, other fields and other objects are unaffected; a field hides a method of the same name; a missing field and method read as null; `new` cannot be read as a method.", "quantifier": "all objects, names and histories", "why_tests_cant": "All histories of stores over aliasing references.", "anchors": ["dice-runtime/src/interpreter/mod.rs:load_field", "dice-runtime/src/interpreter/mod.rs:store_field", "dice-runtime/src/interpreter/helper.rs:get_field"]}
{"id": "C31", "title": "Lexer is total and loses nothing", "statement": "For every source text the lexer terminates and produces tokens whose slices are consecutive, non-overlapping pieces of the source in order, with only whitespace and comments between them.", "quantifier": "all source texts", "why_tests_cant": "All strings.", "anchors": ["dice-syntax/src/lexer/token.rs:TokenIter", "dice-syntax/src/lexer/mod.rs:Lexer"]}
{"id": "C32", "title": "Token classification", "statement": "A maximal identifier-shaped run of characters is a keyword token exactly when it spells a keyword, a reserved token when it spells a reserved word, and an identifier otherwise; numbers are floats exactly when digits follow the dot; operators are split by longest match.", "quantifier": "all source texts", "why_tests_cant": "All strings and all following contexts.", "anchors": ["dice-syntax/src/lexer/token.rs:TokenKind"]}
{"id": "C33", "title": "Operator precedence and associativity", "statement": "Writing any expression tree built from the binary, prefix and postfix operators and parentheses with the minimal parentheses required by the precedence table and parsing the text gives back the same tree (binary operators associate to the left).", "quantifier": "all operator expression trees of any depth", "why_tests_cant": "All trees; precedence mistakes appear only for particular combinations.", "anchors": ["dice-syntax/src/parser/mod.rs:parse_precedence", "dice-syntax/src/parser/rules.rs"]}
{"id": "C34", "title": "Parsing terminates", "statement": "For every token sequence parsing terminates with a tree, an error or a panic after consuming at most the whole input, in a number of steps bounded by a function of the input length.", "quantifier": "all token sequences", "why_tests_cant": "All inputs.", "anchors": ["dice-syntax/src/parser/mod.rs:Parser"]}
{"id": "C35", "title": "Integer literals", "statement": "A decimal literal denotes exactly its mathematical value when it is at most 2^63-1, and is a compile error otherwise.", "quantifier": "all digit strings of any length", "why_tests_cant": "Unbounded digit strings, boundary at 2^63.", "anchors": ["dice-syntax/src/parser/mod.rs:literal"]}
{"id": "C36", "title": "Line and column of an offset", "statement": "For every text and every byte offset of a character in it, the reported line is the number of line feeds before the offset and the column is the distance to the line start in UTF-16 code units.", "quantifier": "all texts (any mixture of 1- to 4-byte characters and line feeds) and all character offsets", "why_tests_cant": "All texts and offsets.", "anchors": ["dice-core/src/source.rs:LineIndex"]}
{"id": "C37", "title": "Lines of a span", "statement": "For a span with start <= end that starts inside the text, the lines query returns, in order, exactly the non-empty lines of the text (each including its line feed) that start before the span's end and end after the span's start. (With start > end the query can panic: recorded as a refutation.)", "quantifier": "all texts and spans", "why_tests_cant": "All texts and spans.", "anchors": ["dice-core/src/source.rs:LineIndex::lines"]}
{"id": "C38", "title": "Span union", "statement": "The sum of two spans is the smallest span containing both; the operation is commutative, associative and idempotent.", "quantifier": "all spans", "why_tests_cant": "All integer pairs.", "anchors": ["dice-core/src/span.rs:Add for Span"]}
{"id": "C39", "title": "Range loops", "statement": "for i in a..b runs the body exactly once for each integer a, a+1, ..., b-1 (a..=b: also b) in increasing order and not at all when the range is empty, provided the bound is below the largest integer.", "quantifier": "all integer bounds and loop bodies that complete", "why_tests_cant": "All bounds; off-by-one at both ends.", "anchors": ["dice-compiler/src/visitor/expr_range_loop.rs"]}
{"id": "C40", "title": "Iterator loops", "statement": "for x in e calls the iterator's next once per iteration and binds value to x until is_done is true, then stops.", "quantifier": "all iterators that eventually finish", "why_tests_cant": "Unbounded iteration.", "anchors": ["dice-compiler/src/visitor/expr_for.rs"]}
{"id": "C41", "title": "Errors leave the runtime usable", "statement": "After a run that ended in a runtime error, the same runtime can run another program with an empty stack. (Refuted: frames are not released on the error path.)", "quantifier": "all failure points", "why_tests_cant": "Any failure point at any call depth.", "anchors": ["dice-runtime/src/runtime.rs:run", "dice-runtime/src/interpreter/helper.rs:call_fn_script"]}
{"id": "C42", "title": "Native array methods", "statement": "push appends, pop removes and returns the last element (unit when empty), length counts, map applies the function to each element in order, filter keeps exactly the elements for which the predicate returns true, iter enumerates the elements in order; none of them changes other arrays.", "quantifier": "all arrays and callback functions", "why_tests_cant": "All lengths and callbacks.", "anchors": ["dice-runtime/src/classes/array.rs"]}
{"id": "C43", "title": "Constructors", "statement": "Calling a class without `new` yields a fresh object of that class and leaves the stack balanced for any number of arguments; with `new` it runs it on a fresh object and yields its result; a class whose base has `new` but which has none itself cannot be constructed. (The last part is refuted when arguments are passed.)", "quantifier": "all classes, argument counts and stacks", "why_tests_cant": "All argument counts and hierarchies.", "anchors": ["dice-runtime/src/interpreter/helper.rs:call_class_constructor"]}
{"id": "C44", "title": "No duplicate declarations", "statement": "Two function (or two class) declarations of one name in one scope and two parameters of one name in a function declaration are compile errors.", "quantifier": "all programs", "why_tests_cant": "All positions and numbers of intervening declarations.", "anchors": ["dice-compiler/src/visitor/decl_fn.rs", "dice-compiler/src/visitor/decl_class.rs", "dice-compiler/src/decl_scan.rs"]}
{"id": "C45", "title": "Module files stay under the working directory", "statement": "The file loader reads only files whose canonical path has the canonical working directory as a component-wise prefix; otherwise it reports the invalid-location error and reads nothing.", "quantifier": "all path strings and file systems", "why_tests_cant": "All paths.", "anchors": ["dice-runtime/src/module/file_loader.rs"]}
{"id": "C46", "title": "Compilation never panics", "statement": "The compiler returns bytecode or an error for every syntax tree the parser can produce. (Refuted: a function declared with the name of a variable of the same scope, exporting a destructuring and super calls outside methods hit unreachable!/expect.)", "quantifier": "all syntax trees", "why_tests_cant": "All trees.", "anchors": ["dice-compiler/src/visitor/decl_fn.rs", "dice-compiler/src/visitor/decl_export.rs", "dice-compiler/src/visitor/expr_super_call.rs"]}
{"id": "C47", "title": "Parsing never panics", "statement": "The parser returns a tree or an error for every source text. (Refuted: tokens without a rule reach todo!().)", "quantifier": "all source texts", "why_tests_cant": "All strings.", "anchors": ["dice-syntax/src/parser/rules.rs:for_token"]}
{"id": "C48", "title": "The whole source is parsed", "statement": "A successful parse accounts for every token of the source. (Refuted: a stray closing brace ends the program and the rest is ignored.)", "quantifier": "all source texts", "why_tests_cant": "All strings.", "anchors": ["dice-syntax/src/parser/mod.rs:parse", "dice-syntax/src/parser/mod.rs:expression_sequence"]}
{"id": "C49", "title": "Integers as text", "statement": "String(z) and z.to_string() write an Int in the usual decimal way; Int(t) reads a text of an optional sign and digits and yields null for every other text and for numbers of more than 64 bits; Int(String(z)) is z.", "quantifier": "all integers and all texts", "why_tests_cant": "All 2^64 integers, all strings.", "anchors": ["dice-runtime/src/classes/int.rs:construct_int", "dice-runtime/src/classes/string.rs", "dice-runtime/src/value.rs:Display"]}
{"id": "C50", "title": "Int and Float conversions", "statement": "Int(x) drops what comes after the point and limits the result to 64 bits (0 for NaN); Float(z) is exactly z up to 2^53, so Int(Float(z)) is z. (Refuted beyond: 2^53 + 1 comes back as 2^53.)", "quantifier": "all integers and floats", "why_tests_cant": "All 64-bit patterns.", "anchors": ["dice-runtime/src/classes/int.rs:construct_int", "dice-runtime/src/classes/float.rs"]}
{"id": "C51", "title": "Text of values", "statement": "v.to_string() and String(v) yield one well-defined text made from the texts of the elements and fields, in order, and exist for every value. (Refuted for arrays and objects that contain themselves: the recursion overflows the stack.)", "quantifier": "all values and heaps", "why_tests_cant": "All nesting depths and shapes.", "anchors": ["dice-runtime/src/value.rs:Display", "dice-runtime/src/value/array.rs", "dice-runtime/src/value/object.rs"]}
{"id": "C52", "title": "Reflection", "statement": "fields() lists exactly the names of the value's fields (null for values that cannot have any), methods() exactly those of its class, class_of() is its class, name() and base() those of the class; nothing existing changes.", "quantifier": "all values and reachable states", "why_tests_cant": "All classes, fields and histories.", "anchors": ["dice-runtime/src/classes/any.rs", "dice-runtime/src/classes/class.rs"]}
{"id": "C53", "title": "Methods of Int", "statement": "abs, pow, min, max, is_positive and is_negative compute the mathematical value; one that does not fit panics in debug builds and wraps in release builds. (Refuted for negative exponents: they are taken modulo 2^32.)", "quantifier": "all integers", "why_tests_cant": "All pairs of 64-bit integers.", "anchors": ["dice-runtime/src/classes/int.rs"]}
{"id": "C54", "title": "Methods of Float", "statement": "floor, ceil and round give the integer below, above and nearest (halves away from zero), abs the absolute value, min and max the smaller and greater ignoring NaN; is_finite, is_infinite, is_nan, is_normal tell the kind of number.", "quantifier": "all floats", "why_tests_cant": "All 64-bit patterns.", "anchors": ["dice-runtime/src/classes/float.rs"]}
{"id": "C55", "title": "Class members are well shaped", "statement": "In every class of an accepted program methods and operators have an unannotated receiver, `new` is a method without return type, and in a class with a base `new` starts by calling the base's constructor.", "quantifier": "all programs the compiler accepts", "why_tests_cant": "All classes at all nesting depths.", "anchors": ["dice-compiler/src/visitor/decl_class.rs"]}
{"id": "C56", "title": "A program is read as the sequence of its statements", "statement": "A text whose tokens are statements one after the other (declarations, loops, branches, imports, exports, expressions, blocks of statements) is parsed to exactly these statements, the last one being the value; no token sequence is two programs.", "quantifier": "all programs of the grammar, of any length and nesting, in any layout", "why_tests_cant": "All statement kinds nested in each other without bound.", "anchors": ["dice-syntax/src/parser/mod.rs: Parser::parse, expression_sequence, if_expression, class_decl, import_decl, export_decl, fn_decl, var_decl"]}
{"id": "C57", "title": "Large programs", "statement": "However many elements, arguments or variables a program has, a list literal is an array of exactly the elements written, a call passes exactly the arguments written to the function named, and different variables never share a value. (Refuted: counts and slots are reduced modulo 256 without an error.)", "quantifier": "all list literals, calls and functions of any size", "why_tests_cant": "Sizes are unbounded; tests are written with small ones.", "anchors": ["dice-compiler/src/visitor/literal_list.rs", "dice-compiler/src/visitor/expr_fn_call.rs", "dice-compiler/src/visitor/decl_var.rs", "dice-compiler/src/visitor/literal_variable.rs"]}
{"id": "C58", "title": "Accepted sources are well shaped", "statement": "In the tree of every source that parses: declarations, loops, break, continue and return stand only as statements of blocks; bodies and branches are blocks; only names, fields and elements are assigned to; class bodies hold functions and operators; functions have at most 255 parameters; imports bind a name; exports are variables, functions, classes or names; integer literals are below 2^63.", "quantifier": "all source texts", "why_tests_cant": "All texts, including ones no one would write.", "anchors": ["dice-syntax/src/parser/mod.rs: Parser::parse", "dice-syntax/src/parser/rules.rs"]}
{"id": "C59", "title": "Ranges of the prelude", "statement": "Range(a, b) and RangeInclusive(a, b), and a..b and a..=b outside of the head of a for loop, make objects that can be iterated: a for loop over one binds its variable to every integer from a up to b (exclusive, inclusive), in order, once each, and then ends; next goes on saying that it is done and changes nothing but its own counter. (Refuted for RangeInclusive: its next answers with the wrong field name, so every for loop over such an object fails before its first pass. At the largest integer a checked build panics.)", "quantifier": "all integers a and b, loop bodies, programs and states", "why_tests_cant": "All pairs of bounds and all bodies.", "anchors": ["data/scripts/prelude.dm", "dice-compiler/src/visitor/expr_for.rs"]}
{"id": "C60", "title": "Reports about errors", "statement": "Formatting an error never panics; the report gives the path, line and column (counted from one, in UTF-16 units) of the start of its span, shows exactly the lines the span touches, each under its own number and without white space at its end, then the notes in order and the trace with the latest entry first. Whatever the order in which an error is given them, the source, span and tags given last count, and all notes and traces. (Refuted in two corners: in a trace over several lines each line has the number of the first; a span that runs backward panics.)", "quantifier": "all errors, source texts (any characters), spans, notes and traces", "why_tests_cant": "All texts and all spans in them.", "anchors": ["dice-core/src/error/fmt.rs: HumanReadableErrorFormatter", "dice-core/src/error/mod.rs: Error"]}
{"id": "C61", "title": "Codes and messages of errors", "statement": "Different errors have different codes; every code has a message; the message of an error as it is raised shows every value it was raised with and leaves no placeholder. (Refuted in corners: E4002 stands for two errors, E1009 and E4003 have no message, a panic without a string shows a placeholder.)", "quantifier": "all error codes, all places that raise errors, all tag values", "why_tests_cant": "All values; and every place that raises an error must match the message file.", "anchors": ["dice-core/src/error/codes.rs", "dice-core/src/error/localization.rs", "data/locales/en-US/errors.ftl", "data/locales/en-US/error-notes.ftl"]}
{"id": "C62", "title": "Results", "statement": "Ok(v) and Err(v) make results that hold v and say which they are; map on a success calls its function once with the value and wraps what it gives, and on an error calls nothing and keeps the value; e!! is the value of a success and otherwise returns the very result from the function; e or x { b } is the value of a success, and otherwise b with x bound to what the error holds. (Refuted for or where the prelude's Result is not imported: it then fails also on a success.)", "quantifier": "all values, functions given to map, expressions, blocks, programs and states", "why_tests_cant": "All values and all functions passed in.", "anchors": ["data/scripts/prelude.dm", "dice-compiler/src/visitor/expr_error_propagate.rs", "dice-syntax/src/parser/mod.rs: Parser::error_coalesce, error_propagate"]}
{"id": "C63", "title": "The interactive tool", "statement": "What is typed is run entry by entry, in order, each entry once, on one runtime that keeps what earlier entries did, whether they gave a value or an error; an entry is a line, without white space at its end, with the lines it continues; the tool ends with its input. (Refuted: the backslash that continues a line stays in the text, so such an entry is not accepted outside of comments; at the end of the input the tool goes on running the empty script for ever; entries that fail leave stack cells behind until a good entry ends the tool.)", "quantifier": "all inputs (any characters), entries, runtimes and numbers of rounds", "why_tests_cant": "All inputs and all histories of entries.", "anchors": ["dice-cli/src/main.rs: main", "dice/src/lib.rs: Dice::run_script"]}
