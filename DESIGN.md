# Formal model of Mr-Byte/dice in Rocq (Coq 8.16.1)

Dice is a small dynamic language written in Rust: lexer and Pratt parser
(`dice-syntax`), bytecode compiler (`dice-compiler`), bytecode format
(`dice-bytecode`), shared pieces (`dice-core`) and a stack VM (`dice-runtime`).
The model is a set of total, computable Gallina functions written from the Rust
text, one definition per Rust function, each with the file and lines it models.

## 1. Method

* `&mut self` functions return the new state; `Result` is data; a Rust panic
  (`unreachable!`, index out of bounds, `expect`, `todo!`, debug assertions and
  debug integer overflow) is the explicit outcome `Panic`.
* Loops over unknown numbers of steps (`execute`, the parser's loops) use fuel.
  Running out of fuel is its own outcome and never looks like a result.
  Theorems about results speak of runs that do not run out of fuel; theorems
  about termination say how much fuel is enough.
* Model files (`Model/*.v`) hold definitions only. `Spec/*.v` hold the small
  independent specifications. `Proofs/*.v` hold lemmas. `Props/*.v` hold only
  the property theorems, each closed by `exact`, followed by
  `Print Assumptions` and by a non-vacuity `Example`.
* Claims that are false of the code are proved as `..._refuted` with a concrete
  witness program evaluated by the kernel, and listed in section 5.
* Only Coq's standard library is used. No axioms.
* `seeded/LOG.jsonl`: coqc stops at the first lemma of a file that fails, so an edit leaves many theorems
  unbuilt that it may not affect. `theorems_failed` lists only those that use a lemma that failed, by
  `tools/attribute_failures.py` or by admitting failed lemmas one after the other in the scratch copy and
  reading `Print Assumptions`. `theorems_not_rebuilt` lists the others: nothing is known about them. Entries up
  to the 203rd at first listed both as failed (626 of 1019 names); this has been corrected. A theorem that fails shows that its
  proof no longer goes through, not by itself that its statement is false.

## 2. What is modelled

| Rust | Rocq (`rocq/theories/Model`) |
|---|---|
| shared vocabulary: outcomes, error codes, machine integers | Common |
| dice-bytecode instruction.rs, cursor.rs, lib.rs (with the disassembler) | Instr, Cursor, Bytecode |
| dice-compiler assembler.rs | Assembler |
| dice-compiler scope_stack.rs, compiler_stack.rs, upvalue.rs | Scope, CompilerStack |
| dice-compiler decl_scan.rs, compile_fn.rs, compiler.rs, visitor/*.rs | Compiler |
| dice-syntax ast/node.rs, ast/mod.rs | Ast |
| dice-syntax lexer/* | Lexer |
| dice-syntax parser/* | Parser |
| dice-core source.rs (LineIndex), span.rs | Source |
| f64 arithmetic | Float (on `Coq.Floats.SpecFloat`) |
| dice-runtime value.rs, value/*.rs, upvalue.rs, type_id.rs | Value |
| texts of values; conversions between Int, Float and String; exact float methods | Text |
| dice-runtime stack/* | Stack |
| dice-runtime interpreter/*, runtime.rs, classes/*.rs | VM |
| dice-runtime runtime.rs, impl of dice_core::runtime::Runtime | Host |
| dice-runtime module/file_loader.rs | FileLoader |
| dice/src/lib.rs: text to run | Script |
| dice-cli/src/main.rs: what the interactive tool does before its loop (without the bodies of `print` and `panic`), and its loop | Cli |
| data/scripts/prelude.dm (as text) | Prelude |
| dice-core/src/error/codes.rs, tag.rs, localization.rs, data/locales/en-US/*.ftl (as text) | Messages |
| dice-core/src/error/mod.rs, fmt.rs, trace.rs, context.rs | Report |

`Tests/ScriptTests.v` runs the modelled pipeline on programs from the repository's
own test suite. These are sanity checks of the model, not proofs.

Not modelled: spans of syntax nodes and the source map (the code that would hand it
on is commented out, assembler.rs:40); in the parser, compiler and VM an error is
its code, while its messages, tags, notes, traces and report are modelled apart from
them in Messages and Report; the garbage collector (heap cells are never
freed, which is what it promises for reachable ones); the iteration order of hash
maps (association lists); NaN payloads; usize wrap-around of the stack pointer
(the panic it leads to is modelled instead); the random ids of functions (a
counter); the interactive tool's prompt, timing, failing input and output, and its `print` and `panic`
functions; the example crates.
Of the native methods, the transcendental functions and sign tests of Float, the
text of a float and the parsing of one from text are not modelled.
The parameters of the model are the operating system's answers to the file loader,
those missing natives, and the natives registered by a host program; theorems
quantify over them.

The runtime crate is in the middle of a port to `gc_arena` and does not compile
at this commit: `lib.rs` comments out `classes`, `runtime.rs` comments out
`any_class`, `module_class`, `is_value_of_type`, ... The model takes the live
text where there is one and the commented text for the missing pieces; each such
place is marked in the definition's comment.

## 3. Plan per property

* C01 `Instr`: enum to byte and back, finite domain, case analysis lifted to all bytes.
* C02 `Cursor`/`Assembler`: big-endian i16 codec over Z, arithmetic proof for all offsets.
* C03 instruction-with-operands type, `encode`, `decode` through the cursor; induction on the list; the disassembler walks the same boundaries.
* C04 `make_constant` histories; invariant by induction on additions.
* C05 assembler with explicit i16 truncation; positions arithmetic; refutation beyond 32767.
* C06, C07 scope-stack operations; invariant by induction over operation sequences; an association-list environment as the specification of lookup.
* C08 recursion over the context stack; path-following specification.
* C09 visitor function on assignments, all scopes; plus an invariant over `visit` for whole programs. At run time: a frame
  theorem over the interpreter of `Spec/EvalSpec.v` (variables whose names are not mutable are never written), then C14.
* C10 induction on syntax trees with a decodability/bounds invariant of the assembler state.
* C11 concrete vector plus pointer against a list; refinement for every operation sequence.
* C12 VM `call_fn`; arbitrary bodies.
* C13, C14, C16 a definitional interpreter for syntax trees (`Spec/EvalSpec.v`: environments and cells, no stack, slots or jumps; it answers "unknown" for functions that fail inside an array method; a program is a script with a library of module texts, each run once in a scope of its own that holds only its exports), the sub-language for which compiled code is related to it (`Spec/SupportSpec.v`), and what agreeing means (`Spec/MeaningSpec.v`). First every visitor is shown to emit code of the described shape (induction on trees, `Proofs/Visit*P.v`), then code of that shape is shown to simulate the interpreter (induction on its fuel, `Proofs/*SimP.v`); `Proofs/CompileP.v` puts the two together. Refutations outside the sub-language by running the model.
* C15 visitor functions, any compiler state.
* C17, C18, C19 VM arithmetic on Z with explicit wrap; IEEE floats from `Coq.Floats.SpecFloat` (computable, axiom free).
* C20, C21 upvalue operations against a store of shared cells; invariant over operation histories; refutation by running a compiled program.
* C22, C23, C24 VM steps over the global and module tables; module loader as a parameter. That an import yields the
  registered object: the same frame theorem, for the hidden variable of a module.
* C25, C26, C27 class heap; invariant over creation histories.  "Nothing else changes methods" (C26_no_other_change) compares
  the interpreter with one that stops where a method of the given name would be defined (Spec/DefinitionSpec.v).  An
  earlier version said that a changed method has a definition somewhere in the history; it was too weak, as defining a
  method as what it already is explains every history.  The same was true of C29_no_other_change and C30_no_other_change;
  they now speak of each single change and are called _partial, since they do not say which instructions make the changes.
* C28, C29, C30 VM steps over the heap.
* C31, C32 lexer as a longest-match function over bytes (the `logos` derive macro is modelled by its documented longest-match rule).
* C33, C34, C47, C48 fuelled parser; printer; induction on trees; fuel bound by induction.
* C35 digit strings; C36, C37 line index against a naive scan; C38 lattice laws.
* C39, C40 the passes of a loop as a relation (`Spec/FlowSpec.v`); induction on the passes, then C14.
* C41 error path of `run`.
* C42 calls of the array methods, the callback's calls as a relation on states (`Spec/ArraySpec.v`); induction on the elements and on the iterator's position; C43 constructor call; C44 visitors; C45 path components (the file system is an oracle); C46 refutations and the sub-language where it holds (`Spec/PanicSpec.v`, induction over the visitors with the positions to be patched and the sorts of the names in scope).
* C49 decimal numerals as inductive relations (`Spec/HostSpec.v`), a scan of the digits with an accumulator; C50, C54 floats as multiples of the smallest one, over Z; C51 the text as a relation on values, against a recursion bounded by the number of arrays and objects (induction and counting); C52 lists of names in the heap; C53 Z arithmetic.
* C55 a boolean check on syntax trees (`Spec/StaticSpec.v`); induction over the visitor.
* C56 the grammar of C33 extended to statements, blocks and declarations (`Spec/GrammarSpec.v`); mutual induction on derivations.
* C57 the source text of a list of n booleans is parsed, compiled and run for every n (induction on the list); variables and arguments by concrete programs.
* C58 an inductive description of trees (`Spec/ShapeSpec.v`) that every function of the parser keeps, by induction on the parser's fuel.
* C59 the text of `data/scripts/prelude.dm` (`Model/Prelude.v`), the trees of its two range classes (`Spec/RangeSpec.v`, shown to be in the parsed text); evaluation of their methods, and of its two operators, in every memory that holds them; induction on the number of integers left.
* C60 `fmt_pretty` and `fmt` as functions to text (colours left out); the report described by counting lines and characters in the source (`Spec/ReportSpec.v`); line index lemmas of C36/C37 extended to all offsets; errors built by any sequence of builder calls.
* C62 the trees of the prelude's classes Result, Ok and Err (`Spec/ResultSpec.v`, shown to be in the parsed text); evaluation of their constructors and of `map` in every memory that holds them; `!!` and `or` for every value with the two fields.
* C63 the tool's loop over a text as its input (`Model/Cli.v`); entries as lines (`Spec/CliSpec.v`), induction on lines and entries; tokens around a backslash by induction on the lexer's specification; a parse reads no unknown token (`Proofs/ParserCleanP.v`, a walk over the parser as for C48); the end of the input and what entries print by C14; mistakes by C41's lemmas; the start by the history of the prelude's code (`Proofs/HostClassP.v`).
* C61 the two message files as text, read by a model of the part of fluent they use; every place that makes an error with the names of its tags (`raised`, `noted`); computed checks over the tables, lifted to all tag values.

Properties that cannot be expressed: none so far. Memory safety, GC correctness
(`gc_arena`), hashing order of `HashMap` and performance are outside the model.

## 4. Trusted base

* The kernel of Coq 8.16.1, and `coqchk`, which rechecks the compiled files.
* `Print Assumptions` stands beneath every theorem of `Props/*.v` and answers
  "Closed under the global context" for each of them: no axiom is used, neither
  from the standard library nor our own. `coqchk -o` lists seven axioms named
  `Coq.ssr.ssrunder.Under_rel.*`: they belong to the standard library's
  ssreflect support file, which other standard library files load; no theorem
  here depends on them.
* No kernel check is switched off; there are no functors, module types, plugins
  or open obligations.
* The faithfulness of `Model/*.v` to the Rust text. Every definition cites the
  lines it models. This is by reading only: the code was not run.
* The meaning of the tools the code relies on: the documented longest-match rule
  of `logos`; IEEE binary64 as defined by `SpecFloat`; a debug build's overflow
  checks where the Rust text uses plain `+`, `-`, `*` on indices.
* The English reading of the statements in `Props/*.v` and of the vocabulary in
  `Spec/*.v`.

## 5. Findings

Statements one would expect to hold and that are false of the code. Those marked
with a theorem are proved false of the model; the others were found by reading.

| What happens | Theorem |
|---|---|
| A jump over more than 32767 bytes is truncated to 16 bits and goes elsewhere | C05_forward_jump_far_refuted |
| `return` and `!!` leave captured variables in the released frame: the closure then reads another function's variables | C21_return_refuted, C21_propagation_refuted, C21_unrelated_variable_refuted |
| A function that fails inside `map`, `filter` or `first` counts as null or false, and its frame stays on the stack; a debug build panics | C42_failing_function_refuted |
| A function given to `map` that changes the array panics | C42_push_while_mapping_refuted |
| `continue` in a `for` loop is rejected with an internal compiler error | C15_continue_in_for_refuted |
| `super(...)` is accepted in any function with a parameter named `self` | C15_super_call_refuted |
| A class declared in the block of an immutable variable of the same name replaces its value | C09_class_replaces_variable_refuted |
| Two classes of one name are accepted if the name is also declared by a variable, a function or the enclosing class | C44_classes_refuted |
| Anonymous functions may have two parameters of one name | C44_anonymous_parameters_refuted |
| The compiler panics on some programs that parse | C46_never_panics_refuted, C46_super_call_refuted |
| The parser panics on an unterminated string, stray symbols and keywords without a rule | C47_parsing_never_panics_refuted |
| A line end does not end a statement: `x` and `(1)` on two lines are one call | C56_line_ends_separate_statements_refuted |
| Counts and slots are reduced modulo 256: a list literal of 256 elements is empty, the 257th variable of a function overwrites the first, a call with 256 arguments calls its last argument | C57_long_list_literals_refuted, C57_many_variables_refuted, C57_many_arguments_refuted |
| `if a { b } else c` runs `c` in either case: the `else` is dropped | C56_else_without_block_refuted |
| A `for` loop over any `RangeInclusive` object fails: its `next` answers with `done` where the loop reads `is_done` | C59_inclusive_range_loop_refuted |
| The counter of a range goes on counting when it is done: at the largest integer a checked build panics | C59_largest_integer_refuted |
| `e or x { b }` fails, also on a success, where no variable `Result` is in scope: it is compiled to an annotation with that name, and the runtime does not load the prelude (runtime.rs:152-165 is commented out) | C62_or_without_prelude_refuted |
| In a trace that covers several lines every line is shown under the number of the first | C60_trace_numbers_refuted |
| A span whose end is before its start makes the report panic | C60_backward_span_refuted |
| Two error codes share the string E4002: a global defined twice would be reported as a module outside of its directory (latent: the only use is commented out) | C61_shared_code_refuted |
| E1009 and E4003 have no message (latent: their uses are commented out) | C61_message_missing_refuted |
| `panic()` without a string in the command line tool shows the placeholder `{$message}` | C61_panic_without_message_refuted |
| Run time errors carry no source, span or trace: nothing in dice-runtime calls with_source, with_span or push_trace, so their report is the headline and notes only (by reading; C60_report_without_source gives the text) | - |
| Everything after an unmatched closing brace is ignored silently | C48_whole_source_parsed_refuted |
| A line of the interactive tool that ends with a backslash is joined with the next one, but the backslash stays in the text: outside of comments no such entry is accepted, and most end the tool with a panic (main.rs:34-38) | C63_continuation_refuted |
| At the end of its input the interactive tool does not end: it goes on running the empty script (main.rs:33 does not look at the number of bytes read) | C63_ends_with_the_input_refuted |
| At the console every entry that fails with variables in use leaves stack cells behind; after enough mistakes a good entry with a variable ends the tool (debug build) | C63_mistakes_do_no_harm_refuted |
| `return` while an operand or a loop's hidden values are on the stack leaves them there: debug builds panic, release builds go on with a wrong stack (`10 + f()` then fails) | C13_return_in_operand_refuted, C13_return_in_for_refuted, C14_return_in_operand_refuted |
| `break` in a `for` over an iterator pops one value too many and panics | C13_break_in_for_refuted |
| The smallest integer divided by -1 panics in every build | C17_division_never_panics_refuted |
| An assignment to an annotated `mut` variable is not checked | C28_reassignment_refuted |
| A subclass shares the static field map of its base class; writing one changes both | C27_static_fields_refuted, C27_float_max_refuted |
| A host's `add_global` replaces the value although it reports an error | C22_host_definition_refuted |
| A host's `new_module` replaces a registered module although it reports an error (runtime.rs:127-136, commented out) | C23_host_module_refuted |
| A module whose code failed stays registered; the second import succeeds with a half initialised module | C24_failed_import_refuted, C24_program_refuted |
| The same file reached under two names runs twice | C23_per_file_refuted |
| After an error the stack space of the failing run is never given back; enough failures make the runtime unusable | C41_failure_leaks_refuted, C41_failures_accumulate_refuted, C41_full_stack_refuted |
| The check that a base class has a constructor is skipped when arguments are given | C43_base_has_new_refuted |
| `lines` panics for a span that ends before it starts | C37_reversed_span_refuted |
| The text of a value that contains itself overflows the stack | C51_has_text_refuted |
| `x.pow(e)` with negative `e` is x to the power of 2^32 + e: a panic in debug builds, a meaningless number in release builds | C53_negative_exponent_refuted |
| Int(Float(z)) is not z for some z beyond 2^53 | C50_round_trip_refuted |
| `//` directly before a line end is two division operators | C32_empty_comment_is_two_operators |
| Storing to an array index out of bounds panics, reading one is an error | C29_write_out_of_range |
| `==` is not reflexive: it is false of a NaN and itself, and of values holding one | C19_reflexive_exactly_on_comparable |
