(** Error codes, their messages and the tags put into them: dice-core/src/error/codes.rs, tag.rs, context.rs,
    localization.rs and the two files of data/locales/en-US.
    The fluent crates are not part of the repository.  Modelled is the documented meaning of the part of their
    syntax the two files use: one message per line, `id = pattern`, comment lines, blank lines, placeables with
    a variable or a string literal.  Isolation marks are switched off (localization.rs:18); a variable without
    a value is written as its placeable. *)
From Verif.Model Require Export Source Lexer.
Open Scope string_scope.
Open Scope list_scope.

(** The strings of the codes, codes.rs:4-76. *)
Definition code_text (c : errcode) : string :=
  match c with
  | UNEXPECTED_TOKEN => "E1000"
  | INVALID_ESCAPE_SEQUENCE => "E1001"
  | UNTERMINATED_STRING => "E1002"
  | UNRECOGNIZED_INPUT => "E1003"
  | RESERVED_KEYWORD => "E1004"
  | FUNCTION_HAS_TOO_MANY_ARGUMENTS => "E1005"
  | OPERATOR_HAS_INCORRECT_ARGUMENT_COUNT => "E1006"
  | INVALID_INTEGER_VALUE => "E1007"
  | INVALID_FLOAT_VALUE => "E1008"
  | UNTERMINATED_BACKSLASH_ARG => "E1009"
  | INTERNAL_COMPILER_ERROR => "E2000"
  | TOO_MANY_UPVALUES => "E2100"
  | TOO_MANY_CONSTANTS => "E2101"
  | NEW_METHOD_CANNOT_HAVE_RETURN_TYPE => "E2200"
  | NEW_METHOD_MUST_HAVE_RECEIVER => "E2201"
  | OPERATOR_MUST_HAVE_RECEIVER => "E2202"
  | NEW_MUST_CALL_SUPER_FROM_SUBCLASS => "E2203"
  | NEW_RETURN_CANNOT_HAVE_EXPRESSION => "E2204"
  | INVALID_SUPER_CALL => "E2205"
  | METHOD_RECEIVER_CANNOT_HAVE_TYPE => "E2206"
  | FUNCTION_CANNOT_HAVE_DUPLICATE_ARGS => "E2207"
  | CLASS_ALREADY_DECLARED => "E2300"
  | FUNCTION_ALREADY_DECLARED => "E2301"
  | INVALID_ASSIGNMENT_TARGET => "E2400"
  | VARIABLE_NOT_DECLARED => "E2401"
  | VARIABLE_NOT_INITIALIZED => "E2402"
  | CANNOT_REASSIGN_IMMUTABLE_VARIABLE => "E2403"
  | INVALID_RETURN_USAGE => "E2500"
  | INVALID_BREAK_USAGE => "E2501"
  | INVALID_CONTINUE_USAGE => "E2502"
  | INVALID_ERROR_PROPAGATE_USAGE => "E2503"
  | INVALID_EXPORT_USAGE => "E2504"
  | INVALID_IMPORT_USAGE => "E2505"
  | INVALID_BOOL_CONVERSION => "E3000"
  | INVALID_INT_CONVERSION => "E3001"
  | INVALID_FLOAT_CONVERSION => "E3002"
  | INVALID_ARRAY_CONVERSION => "E3003"
  | INVALID_STRING_CONVERSION => "E3004"
  | INVALID_SYMBOL_CONVERSION => "E3005"
  | INVALID_OBJECT_CONVERSION => "E3006"
  | INVALID_CLASS_CONVERSION => "E3007"
  | TYPE_ASSERTION_FAILURE => "E3100"
  | TYPE_ASSERTION_NULLABILITY_FAILURE => "E3101"
  | TYPE_ASSERTION_BOOL_FAILURE => "E3102"
  | TYPE_ASSERTION_NUMBER_FAILURE => "E3103"
  | TYPE_ASSERTION_FUNCTION_FAILURE => "E3104"
  | TYPE_ASSERTION_SUPER_FAILURE => "E3105"
  | DIVIDE_BY_ZERO => "E3200"
  | GLOBAL_VARIABLE_ALREADY_DEFINED => "E3300"
  | GLOBAL_VARIABLE_UNDEFINED => "E3301"
  | GLOBAL_OPERATOR_UNDEFINED => "E3302"
  | NEW_FUNCTION_CANNOT_BE_ACCESS_DIRECTLY => "E3400"
  | CLASS_MUST_HAVE_NEW_IF_SUPER_HAS_NEW => "E3401"
  | CLASS_CANNOT_INHERIT_VALUE_TYPE => "E3402"
  | PANIC => "E4000"
  | IO_ERROR => "E4001"
  | INVALID_SCRIPT_LOCATION => "E4002"
  | MODULE_ALREADY_EXISTS => "E4003"
  | GLOBAL_ALREADY_EXISTS => "E4002"
  end.

(** data/locales/en-US/errors.ftl, as text. *)
Definition errors_ftl : string :=
"# Lexing and parsing errors
E1000 = Encountered unexpected token during parsing. Found: {$actual}, Expected: {$expected}
E1001 = Encountered unknown escape sequence '{$sequence}'.
E1002 = Unterminated string encountered.
E1003 = Expected valid expression. Found invalid token: {$input}
E1004 = Expected valid expression. Found reserved keyword: {$input}
E1005 = Function has too many arguments (max: 255).
E1006 = Operator has an incorrect number of arguments (1 for unary operators and 2 for binary).
E1007 = Invalid integer value: {$message}
E1008 = Invalid float value: {$message}

# Compiler errors
E2000 = Internal Compiler Error (please report this as a bug with code to reproduce the issue).

E2100 = The maximum number of upvalues (256) has been exceeded for this compilation unit.
E2101 = The maximum number of constants (256) has been exceeded for this compilation unit.

E2200 = The new method cannot specify a return type.
E2201 = The new method must specify self as the first parameter.
E2202 = Class operators must specify self as the first parameter.
E2203 = The new method must call super first when deriving from another class.
E2204 = The new method cannot return a value.
E2205 = The 'super' keyword can only be used inside of methods of classes.
E2206 = The self parameter of methods cannot specify a type.
E2207 = Function parameters must have unique names. (TODO: Include duplicate names)

E2300 = The class '{$name}' is already defined in this scope.
E2301 = The function '{$name}' is already defined in this scope.

E2400 = Cannot assign value to the left hand side expression.
E2401 = The variable '{$name}' is not declared.
E2402 = The variable '{$name}' is not initialized.
E2403 = Cannot reassign the immutable variabe '{$name}'.

E2500 = The 'return' keyword can only be used inside of functions or methods.
E2501 = The 'break' keyword can only be used inside of loops.
E2502 = The 'continue' keyword can only be used inside of loops.
E2503 = The error propagate operator '!!' can only be used inside of functions or methods.
E2504 = Invalid usage of the 'export' keyword.
E2505 = Invalid usage of the 'import' keyword.

# Runtime errors
E3000 = The value cannot be converted to a boolean.
E3001 = The value cannot be converted to an int.
E3002 = The value cannot be converted fo a float.
E3003 = The value cannot be converted to an array.
E3004 = The value cannot be converted to a string.
E3005 = The value cannot be converted to a symbol.
E3006 = The value cannot be converted to an object.
E3007 = The value cannot be converted to a class.

E3100 = Type assertion failed due to mismatching types.
E3101 = Type assertion failed due to unexpected null value.
E3102 = Type assertion failed due to the target value not being a boolean type.
E3103 = Type assertion failed due to the target value not being a numeric type.
E3104 = Type assertion failed due to the target value not being a function type.
E3105 = Type assertion failed due to encountering invalid super type.

E3200 = Attempted to divide by zero.

E3300 = Global variable {$name} cannot be redefined.
E3301 = Global variable {$name} could not be found.
E3302 = Global operator {$name} could not be found.

E3400 = The 'new' function cannot be accessed directly on class instances.  To construct a new class, use the class name as a function.
E3401 = If a super class has a 'new' function the subclass must also have a 'new' function.
E3402 = Classes cannot inherit from value types.

# System errors
E4000 = A panic has occurred. {$message}
E4001 = IO error occurred. {$message}
E4002 = Modules cannot be loaded from outside the modules directory. Module must be inside of {$directory}".

(** data/locales/en-US/error-notes.ftl, as text. *)
Definition context_ftl : string :=
"note-prefix = note: 

index-operator-types = The index operator only accepts integers, strings, or symbols.
module-load-error = This issue occurred while trying to load the module ""{$module}"".
export-only-allowed-in-modules = The 'export' keyword can only be used inside modules. Export used in the context of: {$kind}.
export-only-allowed-in-top-level-scope = The 'export' keyword can only be used in the top level scope of a module.
import-requires-items-to-be-imported = The 'import' keyword requires either a scoped namespace or list of import items.
import-requires-items-to-be-imported-help = Try using 'import * as module from ""module.dm""' or 'import {""{""} item {""}""} from ""module.dm""'
mismatched-type-assertions = Expected: {$expected}, Found: {$actual}".

(** Tags: tag.rs:1-12; names and values in the order they were pushed. *)
Definition tags := list (string * list char).

(** One element of a pattern: a character, or the value of a variable. *)
Inductive piece := PChar (c : char) | PVar (name : list char).

(** Where the reader of a pattern stands: in text, in a placeable whose characters so far are given, in a string
    literal of a placeable. *)
Inductive pattern_at := InText | InPlace (sofar : list char) | InLiteral.

Definition brace_open : char := 123%N.
Definition brace_close : char := 125%N.
Definition quote : char := 34%N.
Definition dollar : char := 36%N.

(** A pattern of fluent. *)
Fixpoint pattern (st : pattern_at) (t : list char) : list piece :=
  match t with
  | [] => []
  | c :: r =>
      match st with
      | InText => if (c =? brace_open)%N then pattern (InPlace []) r else PChar c :: pattern InText r
      | InPlace sofar =>
          if (c =? brace_close)%N then
            match sofar with
            | d :: name => if (d =? dollar)%N then PVar name :: pattern InText r else pattern InText r
            | [] => pattern InText r
            end
          else if (c =? quote)%N then pattern InLiteral r
          else pattern (InPlace (sofar ++ [c])) r
      | InLiteral => if (c =? quote)%N then pattern (InPlace []) r else PChar c :: pattern InLiteral r
      end
  end.

(** Blanks around an id and at the ends of a pattern do not count. *)
Definition blank (c : char) : bool := (c =? 32)%N.
Fixpoint skip_blanks (t : list char) : list char :=
  match t with c :: r => if blank c then skip_blanks r else t | [] => [] end.
Definition unblank (t : list char) : list char := rev (skip_blanks (rev (skip_blanks t))).

(** The lines of a file, without their line feeds. *)
Fixpoint file_lines (cur : list char) (t : list char) : list (list char) :=
  match t with
  | [] => [cur]
  | c :: r => if (c =? newline)%N then cur :: file_lines [] r else file_lines (cur ++ [c]) r
  end.

(** The text before and after the first equals sign. *)
Fixpoint at_equals (cur : list char) (t : list char) : option (list char * list char) :=
  match t with
  | [] => None
  | c :: r => if (c =? 61)%N then Some (cur, r) else at_equals (cur ++ [c]) r
  end.

(** One line: a message, or nothing for a comment or a blank line. *)
Definition message_line (t : list char) : list (list char * list piece) :=
  match t with
  | [] => []
  | c :: _ =>
      if (c =? 35)%N then []
      else match at_equals [] t with
           | Some (id, p) => [(unblank id, pattern InText (unblank p))]
           | None => []
           end
  end.
Definition messages (file : string) : list (list char * list piece) :=
  flat_map message_line (file_lines [] (chars file)).

(** The resources of en-US, localization.rs:13-20. *)
Definition locale_messages : list (list char * list piece) := messages errors_ftl ++ messages context_ftl.

Fixpoint text_eqb (a b : list char) : bool :=
  match a, b with
  | [], [] => true
  | x :: a', y :: b' => (x =? y)%N && text_eqb a' b'
  | _, _ => false
  end.
Fixpoint find_message (id : list char) (l : list (list char * list piece)) : option (list piece) :=
  match l with
  | [] => None
  | (k, p) :: r => if text_eqb id k then Some p else find_message id r
  end.

(** The arguments: a map from names, collected from the tags in order, so the last tag of a name counts,
    localization.rs:23-27 and 35-39. *)
Fixpoint argument (name : list char) (l : tags) : option (list char) :=
  match l with
  | [] => None
  | (k, v) :: r =>
      match argument name r with
      | Some w => Some w
      | None => if text_eqb name (chars k) then Some v else None
      end
  end.
Definition render_piece (l : tags) (p : piece) : list char :=
  match p with
  | PChar c => [c]
  | PVar n => match argument n l with Some v => v | None => chars "{$" ++ n ++ chars "}" end
  end.
Definition render (l : tags) (p : list piece) : list char := flat_map (render_piece l) p.

(** lookup_with_args and unwrap_or_default, localization.rs:29-31 and 41-43. *)
Definition localize (id : string) (l : tags) : list char :=
  match find_message (chars id) locale_messages with
  | Some p => render l p
  | None => []
  end.
(** localize_error_code, localization.rs:22-32. *)
Definition localize_error_code (c : errcode) (l : tags) : list char := localize (code_text c) l.
(** localize_context_msg_id, localization.rs:34-44. *)
Definition localize_context_msg_id (id : string) (l : tags) : list char := localize id l.

(** The ids of contexts, context.rs:34-40. *)
Definition INVALID_INDEX_TYPES := "index-operator-types".
Definition MODULE_LOAD_ERROR := "module-load-error".
Definition EXPORT_ONLY_ALLOWED_IN_MODULES := "export-only-allowed-in-modules".
Definition EXPORT_ONLY_ALLOWED_IN_TOP_LEVEL_SCOPE := "export-only-allowed-in-top-level-scope".
Definition IMPORT_REQUIRES_ITEMS_TO_BE_IMPORTED := "import-requires-items-to-be-imported".
Definition IMPORT_REQUIRES_ITEMS_TO_BE_IMPORTED_HELP := "import-requires-items-to-be-imported-help".
Definition MISMATCHED_TYPE_ASSERTIONS := "mismatched-type-assertions".
Definition context_ids : list string :=
  [INVALID_INDEX_TYPES; MODULE_LOAD_ERROR; EXPORT_ONLY_ALLOWED_IN_MODULES; EXPORT_ONLY_ALLOWED_IN_TOP_LEVEL_SCOPE;
   IMPORT_REQUIRES_ITEMS_TO_BE_IMPORTED; IMPORT_REQUIRES_ITEMS_TO_BE_IMPORTED_HELP; MISMATCHED_TYPE_ASSERTIONS].

(** Where errors are made, with the names of the tags given (Error::new and the `tags!` after it), by file. *)
Definition raised : list (errcode * list string) :=
  [ (* dice-syntax/src/parser/mod.rs:289, 388 and 413, 1016, 1027, 1117 *)
    (INVALID_IMPORT_USAGE, []); (FUNCTION_HAS_TOO_MANY_ARGUMENTS, []); (INVALID_INTEGER_VALUE, ["message"]);
    (INVALID_FLOAT_VALUE, ["message"]); (UNEXPECTED_TOKEN, ["actual"; "expected"]);
    (* dice-syntax/src/lexer/mod.rs:60, 78, 97, 113; token.rs:352, 358 *)
    (UNEXPECTED_TOKEN, ["expected"; "actual"]); (INVALID_ESCAPE_SEQUENCE, ["sequence"]); (UNTERMINATED_STRING, []);
    (* dice-compiler/src/compiler_stack.rs:111, 115; scope_stack.rs:104, 146, 153, 164, 169; visitor/decl_fn.rs:67;
       decl_class.rs:55; expr_while.rs:31; expr_loop.rs:27 *)
    (INTERNAL_COMPILER_ERROR, []);
    (* assembler.rs:103, 488; compile_fn.rs:19 *)
    (TOO_MANY_UPVALUES, []); (TOO_MANY_CONSTANTS, []); (NEW_METHOD_CANNOT_HAVE_RETURN_TYPE, []);
    (* visitor/expr_break.rs:11; decl_export.rs:17, 28; decl_fn.rs:50, 72; expr_block.rs:121 *)
    (INVALID_BREAK_USAGE, []); (INVALID_EXPORT_USAGE, []); (FUNCTION_CANNOT_HAVE_DUPLICATE_ARGS, []);
    (FUNCTION_ALREADY_DECLARED, ["name"]); (NEW_MUST_CALL_SUPER_FROM_SUBCLASS, []);
    (* expr_super_access.rs:24; expr_return.rs:32, 34; expr_continue.rs:10 *)
    (INVALID_SUPER_CALL, []); (NEW_RETURN_CANNOT_HAVE_EXPRESSION, []); (INVALID_RETURN_USAGE, []);
    (INVALID_CONTINUE_USAGE, []);
    (* decl_class.rs:60, 110 and 149, 120, 153; literal_variable.rs:19 *)
    (CLASS_ALREADY_DECLARED, ["name"]); (METHOD_RECEIVER_CANNOT_HAVE_TYPE, []); (NEW_METHOD_MUST_HAVE_RECEIVER, []);
    (OPERATOR_MUST_HAVE_RECEIVER, []); (VARIABLE_NOT_INITIALIZED, ["name"]);
    (* expr_assignment.rs:32, 116, 134 and 175; expr_error_propagate.rs:17 *)
    (INVALID_ASSIGNMENT_TARGET, []); (VARIABLE_NOT_DECLARED, ["name"]); (CANNOT_REASSIGN_IMMUTABLE_VARIABLE, ["name"]);
    (INVALID_ERROR_PROPAGATE_USAGE, []);
    (* dice-runtime/src/value.rs:76-128 *)
    (INVALID_BOOL_CONVERSION, []); (INVALID_INT_CONVERSION, []); (INVALID_FLOAT_CONVERSION, []);
    (INVALID_ARRAY_CONVERSION, []); (INVALID_STRING_CONVERSION, []); (INVALID_SYMBOL_CONVERSION, []);
    (INVALID_OBJECT_CONVERSION, []); (INVALID_CLASS_CONVERSION, []);
    (* module/file_loader.rs:29 *)
    (INVALID_SCRIPT_LOCATION, ["directory"]);
    (* interpreter/mod.rs:149 and 236, 161 and 189, 224, 247, 268 and 284, 440, 593, 609, 733, 812 *)
    (TYPE_ASSERTION_BOOL_FAILURE, []); (TYPE_ASSERTION_NULLABILITY_FAILURE, []); (TYPE_ASSERTION_FAILURE, []);
    (TYPE_ASSERTION_NUMBER_FAILURE, []); (DIVIDE_BY_ZERO, []); (CLASS_CANNOT_INHERIT_VALUE_TYPE, []);
    (GLOBAL_VARIABLE_ALREADY_DEFINED, ["name"]); (GLOBAL_VARIABLE_UNDEFINED, ["name"]);
    (TYPE_ASSERTION_SUPER_FAILURE, []); (TYPE_ASSERTION_FUNCTION_FAILURE, []);
    (* interpreter/helper.rs:49, 76, 119 (the code of mod.rs:812), 148 *)
    (GLOBAL_OPERATOR_UNDEFINED, ["name"]); (NEW_FUNCTION_CANNOT_BE_ACCESS_DIRECTLY, []);
    (CLASS_MUST_HAVE_NEW_IF_SUPER_HAS_NEW, []);
    (* dice-core/src/error/mod.rs:89; dice-cli/src/main.rs:71, 75 *)
    (IO_ERROR, ["message"]); (PANIC, ["message"]); (PANIC, []) ].

(** Where contexts are made (Context::new): parser/mod.rs:292-296, decl_export.rs:19 and 29,
    interpreter/mod.rs:225 (module-load-error and index-operator-types are never used). *)
Definition noted : list (string * list string) :=
  [ (IMPORT_REQUIRES_ITEMS_TO_BE_IMPORTED, []); (IMPORT_REQUIRES_ITEMS_TO_BE_IMPORTED_HELP, []);
    (EXPORT_ONLY_ALLOWED_IN_MODULES, ["kind"]); (EXPORT_ONLY_ALLOWED_IN_TOP_LEVEL_SCOPE, []);
    (MISMATCHED_TYPE_ASSERTIONS, ["expected"; "actual"]) ].
