{"id": "C01", "title": "Tokenizing loses no text", "statement": "Whenever tokenizing a text finishes, the produced tokens are non-empty, adjacent and in order, they start at the beginning of the text and end at its end, so that concatenating the token texts gives back exactly the text; there is exactly one diagnostic per token and no 'could not tokenize' diagnostic.", "quantifier": "every Unicode text, of any length and content, valid or not as a script", "why_tests_cant": "Every later phase (parsing, error positions, highlighting) slices the source with these ranges; a single input class with a gap or overlap breaks them, and the input space is infinite.", "anchors": ["src/tokenizer.rs:tokenize", "src/tokenizer.rs:parse_tokens", "src/tokenizer.rs:parse_token", "src/tokens.rs:Input"]}
{"id": "C02", "title": "Tokenizing never crashes", "statement": "Tokenizing any text returns tokens and diagnostics; it never panics and never loops forever.", "quantifier": "every Unicode text", "why_tests_cant": "A crash needs one specific byte alignment; sampling strings does not establish absence.", "anchors": ["src/tokenizer.rs:parse_escape", "src/tokens.rs:Input::split_saturating", "src/tokens.rs:Input::split_at"]}
{"id": "C03", "title": "Syntax highlighting does not change the visible text", "statement": "For a line without an ESC character, removing the ANSI escape sequences from the highlighted line gives exactly the line that was typed, whether or not it is valid syntax.", "quantifier": "every line of text without an ESC character for which tokenizing succeeds", "why_tests_cant": "The editor shows the highlighted string in place of what was typed; a dropped or duplicated slice appears only for particular token and diagnostic mixes.", "anchors": ["src/bin.rs:syntax_highlight", "src/bin.rs:strip_ansi_escapes", "src/tokenizer.rs:tokenize"]}
{"id": "C04", "title": "Diagnostics point into the token they describe", "statement": "Each diagnostic range reported for a token lies within that token, ranges of one diagnostic are ordered and do not overlap, and every range falls on character boundaries.", "quantifier": "every Unicode text for which tokenizing succeeds", "why_tests_cant": "Out-of-range diagnostics panic when the error or highlighted line is rendered, but only on the malformed inputs nobody wrote a test for.", "anchors": ["src/tokenizer.rs:parse_string_inner", "src/tokenizer.rs:number_literal", "src/error.rs:print_error_lines", "src/bin.rs:syntax_highlight"]}
{"id": "C05", "title": "Layout does not change meaning", "statement": "Two scripts whose sequences of non-blank, non-comment tokens have the same kinds and texts parse to the same expression whenever both are accepted, whatever white space and comments separate the tokens; one of them can be rejected only for missing white space between two words or for a malformed token.", "quantifier": "all pairs of texts with equal significant token sequences", "why_tests_cant": "It is a relation between two arbitrary texts.", "anchors": ["src/parser.rs:parse_script", "src/tokenizer.rs:tokenize"]}
{"id": "C06", "title": "Parsing always finishes", "statement": "Parsing any token sequence finishes with an expression or a syntax error: no grammar rule recurses without consuming input.", "quantifier": "every finite sequence of tokens", "why_tests_cant": "A non-terminating input cannot be found by tests that terminate; absence of left recursion is a statement about all rules and inputs.", "anchors": ["src/parser.rs:parse_expression", "src/parser.rs:parse_script_tokens"]}
{"id": "C07", "title": "Parsing never crashes", "statement": "Parsing the source of a script whose tokenization succeeded never panics; in particular every string literal accepted by the tokenizer can be unescaped.", "quantifier": "every Unicode text for which tokenizing succeeds", "why_tests_cant": "The unwrap in string decoding is safe only if two independent escape grammars agree on all inputs.", "anchors": ["src/parser.rs:parse_string", "src/tokenizer.rs:parse_escape"]}
{"id": "C08", "title": "The parser keeps every operand", "statement": "Every identifier and literal written in an accepted script occurs in the parsed expression: no operand is silently discarded.", "quantifier": "every accepted token sequence (map literals with distinct keys)", "why_tests_cant": "Backtracking alternatives may swallow input only in particular operator contexts.", "anchors": ["src/parser.rs:parse_expression_prec_five", "src/parser.rs:parse_expression"]}
{"id": "C09", "title": "Operator precedence and associativity", "statement": "Binary operators group by precedence (&& and || loosest, then comparisons, then + and -, then *, //, %; @ tightest), operators of one level group to the left, and parentheses override both, for expressions of any length and nesting.", "quantifier": "all operator expressions over identifiers and literals, of any size", "why_tests_cant": "Infinitely many operator mixes; a precedence slip shows only for specific adjacent pairs in specific positions.", "anchors": ["src/parser.rs:parse_expression_prec_six", "src/parser.rs:parse_expression_prec_five", "src/parser.rs:parse_expression_prec_four", "src/parser.rs:parse_expression_prec_three", "src/parser.rs:parse_expression_prec_two"]}
{"id": "C10", "title": "Printing then parsing gives the expression back", "statement": "Printing an expression in source form and parsing the printed text yields the same expression.", "quantifier": "all expressions built from identifiers, integers, booleans, none, strings, lists, groups, quotes, applications, assignments, functions, macros, conditionals and loops, of any size", "why_tests_cant": "Requires agreement between printer, tokenizer and parser on unboundedly many trees.", "anchors": ["src/expr.rs:impl fmt::Debug for Expression", "src/parser.rs:parse_script"]}
{"id": "C11", "title": "Integer literals are exact or rejected", "statement": "A decimal integer literal denotes exactly its mathematical value when that fits in a signed 64 bit integer, and is a syntax error otherwise; it never wraps or rounds. Every integer value printed by the shell reads back as itself.", "quantifier": "all decimal literals (any number of digits) and all 64 bit integers", "why_tests_cant": "The range boundary and arbitrarily long digit strings exceed sampling.", "anchors": ["src/parser.rs:parse_integer", "src/tokenizer.rs:number_literal", "src/expr.rs:impl fmt::Debug for Expression"]}
{"id": "C12", "title": "String literals denote their contents", "statement": "Writing a text between double quotes, with each quote and backslash preceded by a backslash, is accepted and denotes exactly that text.", "quantifier": "every Unicode text", "why_tests_cant": "All characters, including control and non-ASCII ones, in all combinations.", "anchors": ["src/tokenizer.rs:string_literal", "src/parser.rs:parse_string"]}
{"id": "C13", "title": "Variable scope laws", "statement": "Looking up a name gives the innermost definition; defining or removing a name changes only that name and only in the innermost scope; a name is reported defined exactly when lookup succeeds; removing a name uncovers an outer definition.", "quantifier": "all environments (any chain of scopes), names and values", "why_tests_cant": "Algebraic laws over unbounded scope chains.", "anchors": ["src/env.rs:Environment"]}
{"id": "C14", "title": "Evaluated data is stable", "statement": "A value made of integers, floats, strings, bytes, booleans, none, lists and maps evaluates to itself, in any environment, without side effects, as long as its nesting does not exceed the recursion limit.", "quantifier": "all data values of nesting up to the limit, all environments", "why_tests_cant": "Builtins evaluate their already evaluated arguments again; correctness of every library function depends on this for all values.", "anchors": ["src/expr.rs:Expression::eval_mut"]}
{"id": "C15", "title": "Quoting stops evaluation", "statement": "Evaluating a quoted expression returns the expression itself, unevaluated, without touching variables, printing or running anything, whatever the expression is.", "quantifier": "all expressions and environments", "why_tests_cant": "Ranges over all programs.", "anchors": ["src/expr.rs:Expression::eval_mut", "src/parser.rs:parse_quote"]}
{"id": "C16", "title": "Only the chosen branch of a conditional runs", "statement": "An if expression evaluates its condition once and then exactly the branch selected by truthiness of the result; the other branch has no influence on the result, the variables or the outside world.", "quantifier": "all conditions, branches, environments and outside-world behaviours", "why_tests_cant": "A relation between runs with arbitrary unselected branches.", "anchors": ["src/expr.rs:Expression::eval_mut", "src/expr.rs:Expression::is_truthy"]}
{"id": "C17", "title": "let binds exactly one name", "statement": "After let x = e, x denotes the value of e, the expression yields none, and every other variable is as it was after evaluating e; if e fails, x is untouched.", "quantifier": "all names, expressions and environments", "why_tests_cant": "Ranges over all right-hand sides and environments.", "anchors": ["src/expr.rs:Expression::eval_mut", "src/env.rs:Environment::define"]}
{"id": "C18", "title": "Calling a function leaves the caller's variables alone", "statement": "Calling a user function never adds, changes or removes a variable of the caller, whatever the function body does (assignments, loops, cd), provided evaluating the arguments does not.", "quantifier": "all function bodies, arguments, environments, including failing and aborting calls", "why_tests_cant": "Ranges over all function bodies.", "anchors": ["src/expr.rs:Expression::eval_mut (Lambda application)"]}
{"id": "C19", "title": "Functions capture the values of definition time", "statement": "When a function is created, every free name of its body that is defined gets its current value recorded; rebinding such names afterwards does not change what the function does.", "quantifier": "all functions, environments and later rebindings", "why_tests_cant": "Relates unboundedly many later states to the definition state.", "anchors": ["src/expr.rs:Expression::eval_mut (Lambda)", "src/expr.rs:Expression::get_used_symbols"]}
{"id": "C20", "title": "A function call does not see the caller's variables", "statement": "The result and the effects of calling a stored function on a given value depend only on the function, the value, the current directory and the outside world, not on any other variable of the caller.", "quantifier": "all function values, argument values and pairs of calling environments", "why_tests_cant": "Relates two arbitrary environments for all bodies.", "anchors": ["src/expr.rs:Expression::eval_mut (Lambda application)"]}
{"id": "C21", "title": "Macros run in the caller's scope", "statement": "Applying a macro to one argument behaves exactly as assigning the argument to the parameter in the caller's scope and then running the body there; in particular the parameter and all assignments of the body remain visible afterwards.", "quantifier": "all macro bodies, arguments and environments", "why_tests_cant": "Equivalence of programs for all bodies.", "anchors": ["src/expr.rs:Expression::eval_mut (Macro application)"]}
{"id": "C22", "title": "for visits every element once, in order", "statement": "A for loop over a list binds the loop variable to each element in turn, evaluates the body once per element in order, yields the list of results, and stops at the first failure; iterating over something else is an error and does not run the body.", "quantifier": "lists of any length, all bodies and environments", "why_tests_cant": "Unbounded lists and arbitrary bodies with effects.", "anchors": ["src/expr.rs:Expression::eval_mut (For)"]}
{"id": "C23", "title": "Sequences run in order and stop at the first error", "statement": "A block evaluates its statements in order, each seeing the effects of the previous ones, and yields the last value (none if empty); after a failing statement nothing else of the block runs.", "quantifier": "blocks of any length, all statements", "why_tests_cant": "Unbounded statement sequences with arbitrary effects.", "anchors": ["src/expr.rs:Expression::eval_mut (Do)"]}
{"id": "C24", "title": "Programs without builtins always finish", "statement": "Evaluation of a program that refers to no builtin function always finishes: runaway recursion is cut off by the recursion limit error.", "quantifier": "all programs and environments containing no builtin", "why_tests_cant": "Termination of all programs; tests only see those that stop.", "anchors": ["src/expr.rs:Expression::eval_mut", "src/expr.rs:MAX_RECURSION_DEPTH"]}
{"id": "C25", "title": "The recursion limit covers all recursion", "statement": "Every runaway recursive program is stopped with the recursion limit error instead of exhausting the machine stack.", "quantifier": "all programs in the standard environment", "why_tests_cant": "A universally quantified termination claim; the failing programs crash the test process itself.", "anchors": ["src/expr.rs:Expression::eval", "src/expr.rs:Expression::eval_mut", "src/binary/init/operator_module.rs:get"]}
{"id": "C26", "title": "External commands receive exactly the given arguments", "statement": "Applying a name that is not a variable (or a string) runs the program of that name once, in the shell's current directory, with the evaluated arguments flattened in order, each converted to text, nones left out, and with exactly the variables of at most 1024 bytes as environment; a missing program, a denied permission and any other failure give the corresponding error.", "quantifier": "all program names, argument expressions, environments and operating system answers", "why_tests_cant": "Ranges over all argument shapes and all operating system behaviours.", "anchors": ["src/expr.rs:Expression::eval_mut (Apply of Symbol/String)", "src/expr.rs:Expression::flatten", "src/env.rs:Environment::get_cwd"]}
{"id": "C27", "title": "Only applications run programs", "statement": "Evaluating an expression whose evaluation reaches no application has no effect outside the shell: no process, no output, no file access.", "quantifier": "all application-free expressions, all environments", "why_tests_cant": "Absence of effects for all expressions.", "anchors": ["src/expr.rs:Expression::eval_mut"]}
{"id": "C28", "title": "Outer scopes are never modified", "statement": "No evaluation, including all builtins, ever changes a binding of an enclosing scope; only the innermost scope can change.", "quantifier": "all expressions, environments and outside-world behaviours", "why_tests_cant": "An invariant over all programs and all builtins.", "anchors": ["src/env.rs:Environment::define", "src/env.rs:Environment::undefine", "src/expr.rs:Expression::eval_mut"]}
{"id": "C29", "title": "eval does not change variables", "statement": "The eval builtin runs the expression it is given on a copy of the variables: it returns what the expression returns, and the variables are as before, whereas exec keeps the changes.", "quantifier": "all quoted expressions and environments", "why_tests_cant": "Ranges over all evaluated programs.", "anchors": ["src/binary/init/mod.rs:get (eval, exec)", "src/binary/init/sys_module.rs"]}
{"id": "C30", "title": "try runs the handler exactly on failure", "statement": "err@try returns the value of its body without running the handler when the body succeeds; when it fails, the handler is called exactly once with a map giving the message, the code and the failed expression.", "quantifier": "all bodies, handlers and environments", "why_tests_cant": "Ranges over all bodies, failing in all possible ways.", "anchors": ["src/binary/init/err_module.rs"]}
{"id": "C31", "title": "Published error codes match reported codes", "statement": "For every kind of error, the code reported for it is the code published for that kind, and different kinds have different codes.", "quantifier": "all error values", "why_tests_cant": "Exhaustive agreement of two tables over all error values.", "anchors": ["src/error.rs:Error::codes", "src/error.rs:Error::code", "src/binary/init/err_module.rs"]}
{"id": "C32", "title": "Integer arithmetic is exact or an error", "statement": "+, -, * and // on integers give the exact mathematical result (quotient truncated toward zero) when it fits in 64 bits and an error otherwise, for any number of operands folded from the left; they never wrap around and never crash.", "quantifier": "all lists of 64 bit integers of length at least two", "why_tests_cant": "2^128 operand pairs and unbounded operand lists.", "anchors": ["src/expr.rs:impl Add/Sub/Mul/Div", "src/binary/init/operator_module.rs:get"]}
{"id": "C33", "title": "Remainder never crashes", "statement": "The % operator gives the remainder with the sign of the dividend, or an error; it never crashes the shell.", "quantifier": "all pairs of 64 bit integers", "why_tests_cant": "The crashing pairs are isolated points of a 2^128 space.", "anchors": ["src/expr.rs:impl Rem", "src/binary/init/operator_module.rs:get"]}
{"id": "C34", "title": "Comparison operators form an order consistent with equality", "statement": "On values of one type, exactly one of a < b, a == b, a > b holds, <= is < or ==, and < is transitive.", "quantifier": "all pairs and triples of integers, strings, byte strings, booleans and lists", "why_tests_cant": "Order laws over infinite types.", "anchors": ["src/expr.rs:impl PartialOrd", "src/binary/init/operator_module.rs:get"]}
{"id": "C35", "title": "Equality is an equivalence", "statement": "== is reflexive, symmetric and transitive on values without NaN, and != is its negation.", "quantifier": "all NaN-free expressions", "why_tests_cant": "Structural recursion over infinite trees, including functions and environments.", "anchors": ["src/expr.rs:derive(PartialEq) for Expression", "src/binary/init/operator_module.rs:get"]}
{"id": "C36", "title": "List slicing laws", "statement": "For a list l and integer n: take n and drop n split l, split-at agrees with both, rev is an involution, cons/append/len agree with lists as sequences; negative n behaves as documented by the model (take everything, drop everything).", "quantifier": "lists of any length and contents (data values), all 64 bit n", "why_tests_cant": "Unbounded lists and boundary indices.", "anchors": ["src/binary/init/list_module.rs"]}
{"id": "C37", "title": "zip, unzip and chunk preserve elements", "statement": "zip pairs elements positionally up to the shorter length; unzip inverts zip for lists of equal length; chunk n cuts a list into consecutive pieces of length n (the last may be shorter) whose concatenation is the list.", "quantifier": "lists of any length, all chunk sizes", "why_tests_cant": "Unbounded lists and sizes.", "anchors": ["src/binary/init/list_module.rs"]}
{"id": "C38", "title": "map, filter, reduce and folds visit in order", "statement": "fn@map, fn@filter, fn@reduce, list@foldl and list@foldr call the function once per element, in the documented direction, threading side effects, and stop at the first failure; with a pure function they compute the mathematical map, filter and folds.", "quantifier": "data lists of any length, all functions", "why_tests_cant": "Unbounded lists, arbitrary effectful functions.", "anchors": ["src/binary/init/fn_module.rs:map", "src/binary/init/fn_module.rs:filter", "src/binary/init/fn_module.rs:reduce", "src/binary/init/list_module.rs"]}
{"id": "C39", "title": "head returns the first element", "statement": "list@head of a non-empty list is its first element.", "quantifier": "all non-empty data lists", "why_tests_cant": "A universal claim; no test exists for it in the repository.", "anchors": ["src/binary/init/list_module.rs:get (head)"]}
{"id": "C40", "title": "Dictionaries are finite maps", "statement": "insert, remove, has?, indexing, union, intersect, difference, keys, values, items and from-items obey the laws of finite maps: lookups after each operation are determined by lookups before it, keys are sorted and unique, from-items inverts items.", "quantifier": "all maps of any size, all keys and values", "why_tests_cant": "Algebraic laws over unbounded maps.", "anchors": ["src/binary/init/dict_module.rs", "src/binary/init/operator_module.rs (@)"]}
{"id": "C41", "title": "Ranges have the right elements", "statement": "a to b is the ascending list of the integers i with a <= i < b, and list@range a b of those with a <= i <= b; empty when there are none.", "quantifier": "all pairs of 64 bit integers", "why_tests_cant": "Unbounded lengths and boundary cases.", "anchors": ["src/binary/init/mod.rs (to)", "src/binary/init/list_module.rs (range)"]}
{"id": "C42", "title": "insert puts one element at the index", "statement": "insert on a list puts the value at the given position, keeps all other elements in order, and reports an error when the position is past the end; on a map it replaces or adds exactly the given key.", "quantifier": "all lists, maps, indices, values", "why_tests_cant": "Boundary indices and unbounded lists.", "anchors": ["src/binary/init/mod.rs (insert)"]}
{"id": "C43", "title": "split and join are inverse", "statement": "Joining the pieces produced by string split with the same separator gives the original string; reversing a string twice gives it back; the length reported by len is the number of characters.", "quantifier": "all strings and non-empty separators", "why_tests_cant": "All Unicode strings and separators, overlapping occurrences included.", "anchors": ["src/binary/init/string_module.rs", "src/binary/init/mod.rs (len)"]}
{"id": "C44", "title": "Caesar cipher can be undone", "statement": "Shifting a text by k and then by -k (or 26-k) gives back the text; only ASCII letters change.", "quantifier": "all texts and shift amounts", "why_tests_cant": "All texts, all 64 bit shifts.", "anchors": ["src/binary/init/string_module.rs (caesar)"]}
{"id": "C45", "title": "Integer mathematics functions are exact", "statement": "math@pow, math@fact, math@sum, math@isodd and math@iseven compute the mathematical function when the result fits in 64 bits and otherwise report an error; every integer is either even or odd.", "quantifier": "all 64 bit integers and lists of them", "why_tests_cant": "2^64 arguments; failures are at isolated regions such as negative or huge values.", "anchors": ["src/binary/init/math_module.rs"]}
{"id": "C46", "title": "Removing escapes leaves only text", "statement": "Removing ANSI escapes from a string yields a string without ESC characters, is idempotent, leaves escape-free text untouched, and undoes each of the fmt styling functions.", "quantifier": "all strings", "why_tests_cant": "State machine over all strings.", "anchors": ["src/bin.rs:strip_ansi_escapes", "src/binary/init/fmt_module.rs"]}
{"id": "C47", "title": "The prompt evaluates complete inputs exactly once", "statement": "The interactive loop evaluates a text only if it parses, evaluates it exactly once, and the text is exactly the lines typed since the last evaluated or abandoned input, joined by newlines, in order; an empty line abandons an unparsable input.", "quantifier": "all sequences of typed lines", "why_tests_cant": "Unbounded sequences of lines.", "anchors": ["src/bin.rs:repl"]}
{"id": "C48", "title": "Pipelines connect stages in order", "statement": "A pipeline runs its stages from left to right, each stage once; a program stage receives on its input exactly the captured output of the previous program stage, a function stage receives it as its last argument; a failing stage stops the pipeline.", "quantifier": "pipelines of any length, all stages and outside-world behaviours", "why_tests_cant": "Unbounded pipelines mixing programs and functions.", "anchors": ["src/binary/init/operator_module.rs:pipe_builtin", "src/binary/init/operator_module.rs:expr_to_command"]}
{"id": "C49", "title": "Copying and moving never overwrite", "statement": "fs@cp and fs@mv fail without changing anything when the destination exists; a successful copy leaves the source unchanged and makes the destination an equal tree; cp always finishes.", "quantifier": "all file trees, sources and destinations", "why_tests_cant": "Unbounded directory trees and path relations.", "anchors": ["src/binary/init/fs_module.rs:copy_path", "src/binary/init/fs_module.rs:move_path"]}
{"id": "C50", "title": "Log level filtering is monotone", "statement": "A message of a level is shown exactly when logging is enabled for it; raising the level never hides a message shown before; disabling hides all.", "quantifier": "all sequences of level changes, all levels and messages", "why_tests_cant": "Stateful sequences of unbounded length.", "anchors": ["src/binary/init/log_module.rs"]}
{"id": "C51", "title": "Integers never leave the 64 bit range", "statement": "Every integer inside any value the evaluator produces, stores in a variable or passes to a command is a signed 64 bit integer, whatever builtins are used.", "quantifier": "all programs, environments and outside-world behaviours", "why_tests_cant": "An invariant of all programs.", "anchors": ["src/lib.rs:Int", "src/expr.rs:Expression::eval_mut", "src/binary/init"]}
{"id": "C52", "title": "Syntax errors show the right line", "statement": "The line number printed with a syntax error is the number of the line on which the offending text starts, and the printed line is that line.", "quantifier": "all texts and error ranges in them", "why_tests_cant": "All texts and positions, in particular ranges at line starts and ends.", "anchors": ["src/error.rs:print_error_lines"]}
{"id": "C53", "title": "Builtin operators evaluate their operands once", "statement": "+, -, * and the other operators evaluate each operand expression exactly once.", "quantifier": "all operand expressions", "why_tests_cant": "Double evaluation is only visible for operands whose value is itself code.", "anchors": ["src/binary/init/operator_module.rs:get"]}
{"id": "C54", "title": "Partial application agrees with full application", "statement": "Giving a curried builtin its arguments one at a time yields the same result as giving them all at once.", "quantifier": "all curried builtins, arities and data arguments", "why_tests_cant": "Unbounded arities and all argument values.", "anchors": ["src/binary/init/fn_module.rs:curry_env", "src/expr.rs:Expression::eval_mut (Lambda application)"]}
{"id": "C55", "title": "Function combinators obey their equations", "statement": "fn@id x = x, fn@const x y = x, fn@flip f x y = f y x, fn@compose f g x = f (g x).", "quantifier": "all functions and data values", "why_tests_cant": "Equations between arbitrary programs.", "anchors": ["src/binary/init/fn_module.rs:get"]}
{"id": "C56", "title": "Flattening argument lists", "statement": "Flattening arguments yields the leaves of nested lists from left to right, contains no list itself, and is unaffected by how the lists are nested.", "quantifier": "all argument lists of any nesting", "why_tests_cant": "Unbounded nesting.", "anchors": ["src/expr.rs:Expression::flatten", "src/binary/init/dict_module.rs:flatten"]}
{"id": "C57", "title": "A call of a curried function does not see the caller's variables", "statement": "The result of calling a function defined with several parameters depends only on its arguments and on the variables visible where it was defined, not on the variables visible where it is called.", "quantifier": "all curried functions, arguments and calling scopes", "why_tests_cant": "Only visible when a name free in the function is undefined at its definition and defined at a call.", "anchors": ["src/expr.rs:Expression::eval_mut (Lambda evaluation, Lambda application)"]}
{"id": "C58", "title": "Negation is exact or an error", "statement": "The unary - operator applied to an integer gives its exact negation when that fits in 64 bits and an error otherwise; it never wraps around and never crashes.", "quantifier": "all 64 bit integers", "why_tests_cant": "Only one integer out of 2^64 misbehaves, and how depends on the build mode.", "anchors": ["src/expr.rs:impl Neg", "src/binary/init/operator_module.rs:get"]}
{"id": "C59", "title": "Looking up a list position never crashes", "statement": "list@nth n l gives the element at position n, counted from the end when n is negative, and reports an error when there is no such position; it never crashes the shell.", "quantifier": "all lists, all 64 bit n", "why_tests_cant": "The crash only shows for positions outside the list; the boundary differs per list.", "anchors": ["src/binary/init/list_module.rs:nth"]}
{"id": "C60", "title": "A script runs once and its status tells", "statement": "dune FILE evaluates the file's text once, in the shell set up by main, if it is a valid script, and evaluates nothing of it otherwise; the process status is 0 exactly when the script was accepted and finished without an error.", "quantifier": "all files and outside worlds", "why_tests_cant": "Every script and failure counts.", "anchors": ["src/bin.rs:main", "src/bin.rs:run_file", "src/bin.rs:run_text"]}
{"id": "C61", "title": "A text given with -x is evaluated once", "statement": "dune -x TEXT evaluates the words of TEXT, joined by blanks, once and shows the value; showing it has no other effect.", "quantifier": "all texts and outside worlds", "why_tests_cant": "Only values that are themselves code show the difference.", "anchors": ["src/bin.rs:main"]}
{"id": "C62", "title": "The prompt shows a value without evaluating it", "statement": "After an input the interactive loop prints the value on one line, without evaluating it again and without any other effect, unless the value is None (nothing happens), a symbol or a macro (which are called).", "quantifier": "all values and states", "why_tests_cant": "Values may be arbitrary code.", "anchors": ["src/bin.rs:repl", "src/binary/init/mod.rs:report"]}
{"id": "C63", "title": "Escape sequences of string literals", "statement": "A string literal denotes the text obtained by reading \\\\, \\\", \\b, \\f, \\n, \\r, \\t and \\u{...} (one to five hexadecimal digits naming a Unicode character, not a surrogate) as the character they name and everything else literally; no other escape sequence is accepted in a script.", "quantifier": "every string literal in every script", "why_tests_cant": "All characters and escape sequences in all combinations; the two decoders must agree on each.", "anchors": ["src/tokenizer.rs:parse_escape", "src/parser.rs:parse_string"]}
{"id": "C64", "title": "What is written to a file is read back", "statement": "fs@write puts exactly the bytes of the value (or its text) into the file and fs@append adds them at the end, and no other file or directory changes; fs@read gives the text of a file, or its bytes if they are not UTF-8, and changes nothing; so a text that was written is read back unchanged.", "quantifier": "all file trees, paths, values and texts; with failures of the operating system at any point, the frame part", "why_tests_cant": "All texts, encodings and file trees; partial failures at any point.", "anchors": ["src/binary/init/fs_module.rs:get"]}
{"id": "C65", "title": "Making and removing files touches nothing else", "statement": "fs@rm removes what is at the path with everything below it and nothing else; fs@mkdir only makes directories that lead to the path and keeps all files; fs@rmdir only removes an empty directory; fs@exists?, fs@is-dir? and fs@is-file? tell what is there and change nothing.", "quantifier": "all file trees and paths, with failures of the operating system at any point", "why_tests_cant": "Unbounded trees, and failures in the middle of an operation.", "anchors": ["src/binary/init/fs_module.rs:remove_path", "src/binary/init/fs_module.rs:get"]}
{"id": "C66", "title": "Random values are among those asked for, and all of them are possible", "statement": "rand@int a b with a < b gives an integer z with a <= z < b, rand@choose gives an item of a non-empty list and rand@shuffle gives a permutation of the list; every such integer, item and permutation is given for some random numbers; nothing but random numbers is asked of the outside world; and none of the three ever crashes the shell.", "quantifier": "all integers, lists and sequences of random numbers", "why_tests_cant": "Unbounded lists; a test run sees a few of the possible random numbers and cannot show that the others are in bounds or that every order is reachable.", "anchors": ["src/binary/init/rand_module.rs:get"]}
{"id": "C67", "title": "The lines of a text, and the first and last lines of a file", "statement": "Every text has exactly one division into lines (ended by a line feed, which may follow a carriage return); lines and string@lines give it; fs@head gives the first n lines of a file and fs@tail the last n lines, in the order of the file; neither changes any file.", "quantifier": "all texts, files and numbers of lines", "why_tests_cant": "Unbounded texts with all combinations of line ends, and numbers of lines beyond the file.", "anchors": ["src/binary/init/mod.rs:init", "src/binary/init/fs_module.rs:get", "src/binary/init/string_module.rs:get"]}
{"id": "C68", "title": "cd goes to the directory named, or stays", "statement": "cd t asks for the directory that t leads to from the current directory and enters it: on success the current directory of the shell is that one and no other variable changes; when the directory cannot be found or entered, cd fails and no variable changes.", "quantifier": "all paths, current directories and answers of the operating system", "why_tests_cant": "All failure modes of the operating system at both steps.", "anchors": ["src/binary/init/os_module.rs:cd", "src/env.rs:set_cwd"]}
{"id": "C69", "title": "The shell and the process agree on the current directory", "statement": "After any script in which a cd succeeded, the current directory recorded by the shell (the variable CWD) is the one the process was last told to enter.", "quantifier": "all scripts", "why_tests_cant": "Depends on the scope in which cd is called, in all programs.", "anchors": ["src/binary/init/os_module.rs:cd", "src/binary/init/sys_module.rs:get", "src/env.rs:get_cwd"]}
{"id": "C70", "title": "include runs a file here, import runs it apart", "statement": "sys@include evaluates the expression that a file contains in the scope of the caller, with the same result, effects and changes of variables; sys@import gives the same result and effects but leaves the variables of the caller; a file that is not accepted by the parser is not evaluated and gives an error.", "quantifier": "all files, paths and scopes", "why_tests_cant": "Quantifies over all programs in files.", "anchors": ["src/binary/init/sys_module.rs:get"]}
{"id": "C71", "title": "Conversions to integers are exact", "statement": "int of a text gives the integer written there (digits with an optional sign) when it has 64 bits and fails on every other text; int (str n) is n for every 64 bit integer; int of a float cuts off the fraction and gives the nearest 64 bit integer when the result is out of range.", "quantifier": "all texts, 64 bit integers and finite floats", "why_tests_cant": "2^64 integers and unboundedly many texts.", "anchors": ["src/binary/init/mod.rs:init"]}
{"id": "C72", "title": "Variables by name", "statement": "set gives a variable the value of an expression, unset and unbind make it undefined, and defined? tells whether it has a value; none of them changes another variable or has another effect.", "quantifier": "all names, expressions and scopes", "why_tests_cant": "All variables at once, and expressions of every kind.", "anchors": ["src/binary/init/sys_module.rs:get", "src/env.rs:define", "src/env.rs:undefine", "src/env.rs:is_defined"]}
{"id": "C73", "title": "exit ends the shell with the given code", "statement": "exit n ends the shell with code n (0 without an argument): it is not caught by try, nothing after it is evaluated, and a code other than 0 is not reported as 0; an argument that is not an integer is refused.", "quantifier": "all integers and all contexts made of blocks and try", "why_tests_cant": "2^64 codes, any program around the call.", "anchors": ["src/binary/init/os_module.rs:get", "src/binary/init/err_module.rs:try_builtin"]}
{"id": "C74", "title": "A text widget is a rectangle of the given size", "statement": "widget@create title text w h gives a text of h lines of exactly w characters each, with the title in the upper border and the wrapped text inside; a size or title that does not fit is refused with an error.", "quantifier": "all titles, texts, widths and heights", "why_tests_cant": "The layout depends on the lengths of title, text and every wrapped line.", "anchors": ["src/binary/init/widget_module.rs:create"]}
{"id": "C75", "title": "Widgets side by side and above each other", "statement": "widget@joinx of texts with equally many lines gives the lines of the texts joined row by row, and of rectangles of equal height a rectangle; different heights are refused. widget@joiny of texts of equal width gives all their lines in order, and of rectangles of equal width a rectangle.", "quantifier": "any number of texts of any size", "why_tests_cant": "Quantifies over lists of arbitrary texts.", "anchors": ["src/binary/init/widget_module.rs:joinx", "src/binary/init/widget_module.rs:joiny"]}
{"id": "C76", "title": "fs@ls lists exactly the entries", "statement": "fs@ls of a directory gives one path per entry of the directory and no other, each leading to that entry from the working directory; of a file it gives the file itself, and a path to nothing is an error.", "quantifier": "all disks, working directories and paths", "why_tests_cant": "Quantifies over all directory trees and all ways to write a path.", "anchors": ["src/binary/init/fs_module.rs:list_directory"]}
{"id": "C77", "title": "fs@tree describes a directory", "statement": "fs@tree of a directory gives a map with an item for every entry at every level, with the paths of the directory and of its parent; given a depth it goes down at most that far; what cannot be read is an error.", "quantifier": "all disks, directories and depths", "why_tests_cant": "Quantifies over directory trees of any depth.", "anchors": ["src/binary/init/fs_module.rs:get_dir_tree"]}
{"id": "C78", "title": "fs@glob gives the matches", "statement": "fs@glob gives all paths that match the pattern, in order and as seen from the working directory, so that each leads to the file that matched; a pattern that is not well formed and a directory that cannot be read give an error.", "quantifier": "all patterns, lists of matches and working directories", "why_tests_cant": "Quantifies over all lists of paths and all working directories.", "anchors": ["src/binary/init/fs_module.rs:get"]}
{"id": "C79", "title": "time@sleep waits as long as asked", "statement": "time@sleep n waits for n milliseconds when n is not negative and not at all when it is negative; values that are not numbers are refused. time@now gives the parts of the current time.", "quantifier": "all values, all 64 bit integers and finite floats", "why_tests_cant": "2^64 integers; waiting times of centuries cannot be tested.", "anchors": ["src/binary/init/time_module.rs:sleep", "src/binary/init/time_module.rs:now"]}
{"id": "C80", "title": "Console output lands where asked", "statement": "On a terminal that follows ECMA-48, console@write x y t draws the lines of t from column x and row y down and puts the cursor back, console@clear empties the screen, the cursor functions move by the given numbers of rows and columns, and console@title sets the title.", "quantifier": "all texts of visible characters, all positions and all screens", "why_tests_cant": "The effect depends on the whole screen and on unboundedly many positions.", "anchors": ["src/binary/init/console_module.rs:write", "src/binary/init/console_module.rs:title", "src/binary/init/console_module.rs:clear", "src/binary/init/console_module.rs:get"]}
{"id": "C81", "title": "Keys are told apart", "statement": "console@keyboard@read-key gives for every key the text that the table console@keyboard@keys has under its name, characters as they are, and different texts for different keys.", "quantifier": "all keys", "why_tests_cant": "Tests cannot press keys without a terminal; pairs of all keys are compared.", "anchors": ["src/binary/init/console_module.rs:get"]}
{"id": "C82", "title": "JSON and TOML keep their structure", "statement": "parse@json and parse@toml give for every text the library accepts a value of the same structure: lists item by item in order, objects as maps with exactly the same keys and for each key the value of its last item, texts, numbers and booleans as they are; every other text gives an error.", "quantifier": "all texts and all JSON and TOML values of any depth", "why_tests_cant": "Quantifies over nested values of any size.", "anchors": ["src/binary/init/parse_module.rs:json_to_expr", "src/binary/init/parse_module.rs:toml_to_expr", "src/binary/init/parse_module.rs:parse_json", "src/binary/init/parse_module.rs:parse_toml"]}
{"id": "C83", "title": "Parsed text runs like a script", "statement": "parse@expr gives the expression of the parser without evaluating it or having an effect; exec (parse@expr t) has exactly the results and effects of the script t, eval (parse@expr t) the same without changes of variables, and neither runs any part of a text that is no script.", "quantifier": "all texts, states and results", "why_tests_cant": "Quantifies over all scripts.", "anchors": ["src/binary/init/parse_module.rs:parse_expr", "src/binary/init/mod.rs:init"]}
{"id": "C84", "title": "Hints continue the line", "statement": "While a line is typed that begins one of the proposed commands (exit 0, ls, rm -ri, cp -r, head, tail, cd, clear), the hint is the rest of a command that begins with it; other lines and blank lines get the hint of the history.", "quantifier": "all lines", "why_tests_cant": "All texts, among them every beginning and every part of a command.", "anchors": ["src/bin.rs:hint"]}
{"id": "C85", "title": "Completion continues the word", "statement": "Accepting a completion appends the rest of the name of the file to the word at the cursor and changes nothing else in the line, also when the working directory cannot be entered.", "quantifier": "all lines, cursor positions, working directories and completers", "why_tests_cant": "Quantifies over lines, positions and sets of files.", "anchors": ["src/bin.rs:complete"]}
{"id": "C86", "title": "A new shell has its modules and directories", "statement": "In a new shell every module is there under its name and the same under std, HOME, DESK, DOCS and DOWN are the known directories of the user, CWD is the working directory, os@name tells systems apart, and os@family of a distribution of Linux is linux.", "quantifier": "all machines", "why_tests_cant": "The start depends on the machine: tests run on one.", "anchors": ["src/binary/init/mod.rs:init", "src/binary/init/fs_module.rs:get", "src/bin.rs:get_os_name", "src/bin.rs:get_os_family"]}
{"id": "C87", "title": "Trimming removes exactly the spaces at the ends", "statement": "string@trim removes all spaces (characters with the Unicode property White_Space) at the beginning and the end of a text and nothing else; trim-start and trim-end do so at one end; trimming again changes nothing; is-whitespace? holds just of texts of spaces; other values give an error.", "quantifier": "for all texts, all argument expressions and states", "why_tests_cant": "texts are unbounded and the white space characters are spread over Unicode", "anchors": ["src/binary/init/string_module.rs:107-117", "src/binary/init/string_module.rs:359-393"]}
{"id": "C88", "title": "Words, characters and paragraphs of a text", "statement": "string@words gives the maximal pieces of a text without spaces, in order; string@chars gives the characters; string@paragraphs gives the parts between blank lines, none of them empty or beginning with a line feed, and joining them with blank lines gives back the text.", "quantifier": "for all texts", "why_tests_cant": "any number and kind of spaces can occur anywhere", "anchors": ["src/binary/init/string_module.rs:294-342"]}
{"id": "C89", "title": "Searching and replacing", "statement": "string@starts-with?, ends-with? and contains? hold just when the second text is a beginning, an end, a part of the first. string@replace puts the new text in place of every occurrence of the old one, from left to right without overlap; afterwards the old text does not occur any more if the new text does not contain it.", "quantifier": "for all texts, including empty ones", "why_tests_cant": "overlapping occurrences need particular texts", "anchors": ["src/binary/init/string_module.rs:395-442"]}
{"id": "C90", "title": "Upper, lower and title case", "statement": "On ASCII texts to-upper and to-lower change the case of all letters and nothing else; to-title makes the first letter of each word a capital and all others small; doing so again changes nothing; is-title holds just of texts unchanged by to-title, and is-upper (is-lower) of the results of to-upper (to-lower).", "quantifier": "for all texts of ASCII characters", "why_tests_cant": "all texts cannot be tried; position of words matters", "anchors": ["src/binary/init/string_module.rs:162-258"]}
{"id": "C91", "title": "Splitting a text at a position never crashes", "statement": "string@split-at gives the two parts of a text before and after a position, for every position from 0 to the length of the text, and an error for others.", "quantifier": "for all texts and integers", "why_tests_cant": "depends on the characters before the position", "anchors": ["src/binary/init/string_module.rs:344-357"]}
{"id": "C92", "title": "Width of a text", "statement": "string@get-width is the length in characters of the longest line of a text.", "quantifier": "for all texts that fit into memory", "why_tests_cant": "any arrangement of lines", "anchors": ["src/binary/init/string_module.rs:79-105"]}
{"id": "C93", "title": "Printing", "statement": "print, println and echo evaluate their arguments from left to right and print each value as soon as it is known, with a space between two values; print adds nothing at the end and println and echo add one line feed, also when there are no arguments. An argument that fails ends the printing, and what came before it has been printed.", "quantifier": "for all lists of argument expressions, states and answers of the host", "why_tests_cant": "any number of arguments, each with side effects or failures of its own", "anchors": ["src/binary/init/mod.rs:101-151", "src/binary/init/log_module.rs:252-262"]}
{"id": "C94", "title": "Asking the user", "statement": "input shows its arguments separated by spaces and gives the line that is typed; an interrupt gives the empty text, and the end of the input ends the shell. When an argument fails nothing is asked. console read-line and read-password give what is read, and crash exactly when nothing can be read.", "quantifier": "for all arguments, states and lines typed", "why_tests_cant": "behaviour at the end of the input and on interrupts is hard to reproduce in a test", "anchors": ["src/binary/init/mod.rs:153-169", "src/bin.rs:82-100", "src/binary/init/console_module.rs:118-128"]}
{"id": "C95", "title": "Help", "statement": "help explains each of its arguments in order: topics by their names, without evaluating them, and functions of the library by their values; every function and module of the library is explained.", "quantifier": "for all lists of arguments and states", "why_tests_cant": "names, values and topics may hide one another in any program", "anchors": ["src/binary/init/mod.rs:63-99"]}
{"id": "C96", "title": "Shifts of integers", "statement": "lsh, rsh and l-rsh of an integer by 0 to 63 places give the product with a power of two (modulo 2^64), the quotient rounded down, and the quotient of the unsigned integer. Other amounts and values give an error.", "quantifier": "for all 64-bit integers and amounts", "why_tests_cant": "2^128 pairs of arguments", "anchors": ["src/binary/init/math_module.rs:14-77"]}
{"id": "C97", "title": "Absolute values", "statement": "math@abs gives the absolute value of each integer and float and an error for other values.", "quantifier": "for all integers, floats and other values", "why_tests_cant": "fails for a single integer", "anchors": ["src/binary/init/math_module.rs:159-166"]}
{"id": "C98", "title": "Rounding to whole numbers is exact", "statement": "floor, ceil, trunc and round of a finite float give exactly the whole number below, above, nearest to zero, and nearest (halves away from zero); integers, infinities and NaN are kept and other values give an error.", "quantifier": "for all floats and other values", "why_tests_cant": "2^64 floats, and halves and large numbers are special", "anchors": ["src/binary/init/math_module.rs:168-202"]}
{"id": "C99", "title": "Float arithmetic is correctly rounded", "statement": "+, -, * and // of two floats, or of a float and an integer, give the float nearest to the exact result, of two equally near ones the one with even last digit, and an infinity beyond the greatest; integers are rounded to the nearest float first. Infinities, NaN and zero divisors follow IEEE 754.", "quantifier": "for all pairs of numbers of which one is a float, all operand expressions and states", "why_tests_cant": "2^128 pairs; errors in the last digit do not show", "anchors": ["src/expr.rs:680-778"]}
{"id": "C100", "title": "Float literals denote the nearest float", "statement": "A literal of digits, a point and digits, with or without minus sign, denotes the float nearest to the decimal number; a point without digits after it is a syntax error at that place.", "quantifier": "for all literals, of any length", "why_tests_cant": "literals of any length, and most decimal numbers are not floats", "anchors": ["src/parser.rs:260-271", "src/tokenizer.rs:145-185"]}
{"id": "C101", "title": "Comparison of floats agrees with the numbers", "statement": "<, <=, >, >=, == and != of two numbers hold just when they hold of the numbers they stand for; infinities are beyond all others, and of NaN only != holds.", "quantifier": "for all pairs of numbers, all operand expressions and states", "why_tests_cant": "2^128 pairs", "anchors": ["src/expr.rs:354-366", "src/expr.rs:92-92"]}
{"id": "C102", "title": "A printed float is read back as itself", "statement": "The text that a float is printed as is a literal that denotes the same float, and among the literals that do so it is one with the fewest digits after the point.", "quantifier": "for all floats", "why_tests_cant": "2^64 floats, most of which need 16 or 17 digits", "anchors": ["src/expr.rs:169", "src/expr.rs:242", "src/parser.rs:258-270"]}
{"id": "C103", "title": "Showing a syntax error never crashes", "statement": "Every range a syntax error points at is a piece of the source text that starts and ends between characters, and the message with its excerpt can be printed for every syntax error the parser reports.", "quantifier": "for all source texts that are rejected, all errors reported for them", "why_tests_cant": "the ranges come from every rule of the grammar and from the tokenizer, and slicing a text between bytes of a character panics", "anchors": ["src/error.rs:101-253", "src/parser.rs:40-170"]}
{"id": "C104", "title": "The shell crashes only in known places", "statement": "A program can end the shell with a panic only inside a call of one of a fixed list of builtin functions, in the way listed for it: with fewer arguments than the function indexes, or with the panic named for it; a build without overflow checks has no overflow panics. The list is exact: each entry happens.", "quantifier": "for all expressions, environments, worlds and build profiles", "why_tests_cant": "the claim is about all builtin functions and all programs that reach them", "anchors": ["src/expr.rs:476-678", "src/binary/init/operator_module.rs:14-446", "src/binary/init/mod.rs:100-470"]}
{"id": "C105", "title": "Choosing, applying to a list, and making a list", "statement": "fn@? evaluates its condition and then exactly the branch it selects; fn@apply evaluates a function and a list and applies the one to the items of the other; list@list makes the list of the values of its arguments; wrong numbers of arguments are refused before anything is evaluated.", "quantifier": "for all expressions as arguments, environments and worlds", "why_tests_cant": "whether the other branch is evaluated shows only in effects, and arguments can be any code", "anchors": ["src/binary/init/fn_module.rs:80-123", "src/binary/init/list_module.rs:46-48"]}
{"id": "C106", "title": "Code as a value: quoting and parsing", "statement": "sys@quote gives the expression written, unevaluated, like the quotation operator; sys@parse reads the shown text of its argument and gives None exactly if the text is no script.", "quantifier": "for all expressions, all texts and environments", "why_tests_cant": "the claim ranges over all source texts, accepted and rejected", "anchors": ["src/binary/init/sys_module.rs:8-20", "src/parser.rs:126-226"]}
{"id": "C107", "title": "The variables as a map", "statement": "vars and sys@env give a map with exactly the visible variables and their values, each once; sys@cwd gives the current directory.", "quantifier": "for all environments and all programs that were evaluated before", "why_tests_cant": "environments are reached by arbitrary programs", "anchors": ["src/binary/init/mod.rs:289-293", "src/binary/init/sys_module.rs:67-69", "src/binary/init/sys_module.rs:92-94", "src/env.rs:49-57"]}
{"id": "C108", "title": "Kinds of characters", "statement": "string@is-alpha?, is-numeric? and is-alphanumeric? are true of a text exactly if every character is a letter, a digit, or one of both; they are true of the empty text and refuse values that are no texts.", "quantifier": "for all texts and values", "why_tests_cant": "texts have any length and characters", "anchors": ["src/binary/init/string_module.rs:119-153"]}
{"id": "C109", "title": "Maps in order and scopes that do not nest", "statement": "Every map value that exists during a session, wherever it is stored, has strictly increasing and therefore unique keys; every environment, also those captured by functions, has no enclosing scope; so vars () lists exactly the variables that are defined, each once.", "quantifier": "for all scripts, environments of the machine, answers of the outside world and sessions of any length, also after failed scripts", "why_tests_cant": "maps arise from arbitrary programs by nearly every builtin function, and the claim is an invariant over unboundedly many evaluations", "anchors": ["src/expr.rs:84-110", "src/expr.rs:640-660", "src/env.rs:6-90", "src/parser.rs:384-410"]}
{"id": "C110", "title": "Square roots are correctly rounded", "statement": "math@sqrt of a positive number is the float nearest to its exact square root; the root of a square is exact, also for all integers whose square is an integer of the language; zeros and infinity are their own roots and negative numbers give NaN.", "quantifier": "for all finite floats, all integers n with n * n < 2^63, hosts and states", "why_tests_cant": "there are 2^64 floats, and nearness is a statement about irrational numbers and all other floats", "anchors": ["src/binary/init/math_module.rs:377-388"]}
{"id": "C111", "title": "Elementary functions and logarithms", "statement": "Every function of one number treats an integer like the nearest float and rejects other values; log b x is the rounded quotient of the natural logarithms with the base evaluated first, log x x is one, log2 and log10 are log with the bases 2 and 10, and sinpi, cospi, tanpi multiply by pi first. Logarithms of powers of the base are exact.", "quantifier": "for all functions, numbers, hosts and states", "why_tests_cant": "the functions of the machine are parameters, so the statements hold for every implementation of them", "anchors": ["src/binary/init/math_module.rs:204-283", "src/binary/init/math_module.rs:318-475"]}
{"id": "C112", "title": "Factorials of floats", "statement": "math@fact of a float below zero is an error and of any other float that is a whole number it is the factorial of that number.", "quantifier": "for all floats, hosts and states", "why_tests_cant": "the formula uses functions of the machine; the outcome for zero holds whatever they compute", "anchors": ["src/binary/init/math_module.rs:148-154"]}
{"id": "C113", "title": "Modes and size of the terminal", "statement": "On a terminal with two screens the console functions save, restore, hide and show the cursor, and after alternate ... normal the normal screen and its cursor are as before, whatever was written between; width and height give the size or None; flush and the raw and cooked modes do what they ask for, and only flush can crash, exactly when the output cannot be written. None of them evaluates its arguments.", "quantifier": "for all terminals, texts written between, arguments, hosts and states", "why_tests_cant": "terminals have unboundedly many states, and the answers of the world are arbitrary", "anchors": ["src/binary/init/console_module.rs:8-38", "src/binary/init/console_module.rs:97-116", "src/binary/init/console_module.rs:194-206"]}
{"id": "C114", "title": "Texts of values, wrapping and real paths", "statement": "string@to-string gives the text that is shown for a value and keeps texts; debug prints the texts that can be read again, separated by spaces; fmt@wrap evaluates the width first, and widths that are no positive integers are errors; fs@canon gives the real path of a path in the working directory and fails exactly when there is none.", "quantifier": "for all values, arguments, hosts and states", "why_tests_cant": "values are of unbounded size and the order of effects matters for all programs", "anchors": ["src/binary/init/string_module.rs:32-35", "src/binary/init/fmt_module.rs:114-125", "src/binary/init/fs_module.rs:165-175", "src/binary/init/mod.rs:116-133"]}
{"id": "C115", "title": "Leap years and lengths of months", "statement": "The functions is-leapyear and days-in-month of both start-up scripts follow the Gregorian rules: a year is a leap year iff 4 divides it and 100 does not or 400 does, for all 64-bit years, and the months have their lengths. Defining them changes nothing else.", "quantifier": "for all 64-bit years, months, argument expressions, call depths, hosts and shells whose operators have not been redefined", "why_tests_cant": "there are 2^64 years and every caller has its own variables and effects in the arguments", "anchors": ["src/.default-dune-prelude:630-646", "src/.intro-dune-prelude:285-301"]}
{"id": "C116", "title": "Days of the week", "statement": "The function day-of-week of both start-up scripts gives the day of the week of every date of the years 1 to 2^53, where the days of the week are defined by counting on from 1 January 2000, a Saturday, day by day. Earlier and later years give wrong days.", "quantifier": "for all valid dates, argument expressions, hosts and shells whose operators have not been redefined", "why_tests_cant": "2^53 years of dates, and the function divides with floats; the error begins at 2^53 + 3", "anchors": ["src/.default-dune-prelude:648-656", "src/.intro-dune-prelude:303-311"]}
{"id": "C117", "title": "The calendar shows the month", "statement": "make-calendar gives a framed page: the heading in the middle, the names of the days, and every day of the month in the column of its day of the week and the row of its week, today marked by a star, and nothing else; there are at most eight lines, so the frame cuts none of them off.", "quantifier": "for all valid dates of the years 1 to 2^53, hosts and shells whose operators have not been redefined", "why_tests_cant": "the layout depends on the day of the week of the first day, the length of the month and the day, for unboundedly many months", "anchors": ["src/.default-dune-prelude:683-707", "src/.intro-dune-prelude:338-362", "src/binary/init/widget_module.rs:13-109"]}
{"id": "C118", "title": "Printed lists are even frames that fit the terminal", "statement": "A printed list or map consists of lines that all end at the same column, unless a list is printed the way it is read. A list of simple elements is framed exactly when the bytes of its texts and one more for each bar are at most the terminal width; then the frame holds the texts in order between bars. Different lists of integers are never printed alike. What is printed fits the terminal.", "quantifier": "for all values, terminal widths, character widths giving frames and spaces one column, and hosts", "why_tests_cant": "the layout depends on the widths of all elements at every nesting level and on the terminal", "anchors": ["src/expr.rs:225-287"]}
{"id": "C119", "title": "Maps can be printed, one row for each entry", "statement": "Printing a map of simple values gives a frame with one row for each entry, in order, filled up to the widest key and the widest value. Every value can be printed without crashing.", "quantifier": "for all maps, nested values, terminal widths and hosts", "why_tests_cant": "the subtraction of the length of a key from the width depends on keys, nesting and terminal", "anchors": ["src/expr.rs:288-331"]}
{"id": "C120", "title": "The prompts name the directory and line up", "statement": "The definitions of the main program never fail in a new shell, and change no other name. Afterwards the prompt is a text that looks like the word (dune) in brackets, the working directory and a dollar sign, with colour codes only between; the prompt of further lines looks like as many spaces as the word and the directory have characters, followed by a greater-than sign. Reading the prompt changes nothing.", "quantifier": "for all hosts, machines, shells in which the definitions ran, working directories and earlier lines", "why_tests_cant": "the prompt is computed by a script whose text includes colour codes around an arbitrary directory", "anchors": ["src/bin.rs:454-471", "src/bin.rs:573-594"]}
{"id": "C121", "title": "join puts the separator between the texts", "statement": "The function join defined by the main program gives the texts of the elements in order with the text of the separator between each two, for lists of plain data of every length.", "quantifier": "for all separators, lists of data, scopes and hosts", "why_tests_cant": "the fold is built from closures over an arbitrary separator and runs as often as the list is long", "anchors": ["src/bin.rs:575-581"]}
{"id": "C122", "title": "The small helpers of the start-up script do what they say", "statement": "The first thirteen definitions of the start-up script never fail in a new shell and change no other name. Afterwards quit, q and exit end the shell, exit with the status it is given; concat y after x gives the text of the piped value followed by the argument; get gives the element of a table that indexing gives.", "quantifier": "for all hosts, machines, shells in which the definitions ran, argument expressions and values", "why_tests_cant": "the helpers are scripts whose closures capture an arbitrary scope and are called with arbitrary expressions", "anchors": ["src/.default-dune-prelude:33-58"]}
{"id": "C123", "title": "ssh and scp run exactly one program with exactly the arguments", "statement": "The helpers ssh and scp run exactly one program, the one of their name, with the option -X or -r, the words of the source, and the user, host and path joined by @ and a colon, in the directory of the caller. The answer of the operating system decides the outcome; nothing else is changed.", "quantifier": "for all hosts, shells in which the definitions ran, values of the arguments and answers of the operating system", "why_tests_cant": "the command line depends on every value and on the scope of the caller", "anchors": ["src/.default-dune-prelude:41-48"]}
{"id": "C124", "title": "The dollar helper finds the files whose name contains the text", "statement": "The helper $ of the start-up script, given a text that is not empty, gives exactly the names in the current directory that contain the text, in the order of the listing. Only the directory is asked, once; the only variable that changes is GLOB.", "quantifier": "for all hosts, shells in which the definitions ran, texts, directories and listings", "why_tests_cant": "the names are an arbitrary list of arbitrary texts, filtered by a closure inside a pipeline", "anchors": ["src/.default-dune-prelude:33"]}
{"id": "C125", "title": "include runs a file in place, use runs it in a copy", "statement": "For the helpers include and use of the start-up script: if the file has a text that parses, include behaves as the program in the place of the call, and its definitions stay; use has the same outcome and effects but leaves the variables of the caller as they were. If the file cannot be read or does not parse, both give that error and run nothing of it.", "quantifier": "for all hosts, files, texts, programs, outcomes and shells in which the definitions ran", "why_tests_cant": "the file may hold any program with any outcome", "anchors": ["src/.default-dune-prelude:35-36"]}
{"id": "C126", "title": "The report of the start-up script prints the value, and once the message", "statement": "With the start-up script for new users, reporting a value prints what the built-in report prints. Over any number of reports the request for a donation is printed exactly once, after the 51st. Reports change no variable of the user.", "quantifier": "for all hosts, machines, numbers of reports, values and shells in which the definitions ran", "why_tests_cant": "the message depends on the whole history of the session", "anchors": ["src/.intro-dune-prelude:32-53", "src/.intro-dune-prelude:446-454", "src/bin.rs:490-523"]}
{"id": "C127", "title": "The help of the start-up script explains what it is asked for", "statement": "With the start-up script for new users, help explains a topic by its name and a function by its value, as the built-in help does; for help me, and for help alone, the request for a donation follows. No variable of the user hides a topic.", "quantifier": "for all hosts, topics, functions, expressions and shells in which the definitions ran", "why_tests_cant": "the script compares an arbitrary value with each topic in turn", "anchors": ["src/.intro-dune-prelude:456-477", "src/binary/init/mod.rs:63-99"]}
{"id": "C128", "title": "Redirection writes exactly what the left side gives", "statement": "x >> f writes to the file f, seen from the working directory, exactly the text or the bytes of the value of x, or byte for byte the output of the program x, and nothing else happens; x >>> f opens the file and appends them; x << f hands the contents of the file to x. A file that cannot be opened or written gives an error. On a disk every other file stays as it was.", "quantifier": "for all hosts, expressions, programs, files, directories, disks and shells in which the operators are those of a new shell", "why_tests_cant": "the operators are closures in the language of the shell, reached through a pipeline, with the directory of the caller", "anchors": ["src/binary/init/operator_module.rs:267-290", "src/parser.rs:541-613", "src/binary/init/fs_module.rs:273-323"]}
{"id": "C129", "title": "max and min give the greater and the smaller of two values", "statement": "math@max evaluates both arguments once, in order, and gives one of them that is not less than either; math@min gives one that is not greater than either; for integers and floats the greater and the smaller number. Redefining the comparison later changes nothing.", "quantifier": "for all hosts, depths, expressions and pairs of values", "why_tests_cant": "functions in the language of the shell over all pairs of values", "anchors": ["src/binary/init/math_module.rs:11-12", "src/expr.rs:PartialOrd for Expression"]}
{"id": "C130", "title": "The welcome banner shows the logo, the time and the sky", "statement": "welcomebanner asks for the time once and prints, in order, the heading, the logo with every line painted, and a line with the hour and minute, a picture of the sky that goes with the hour (sun, sunset, night) and the date. The two start-up scripts define the same banner. Afterwards only the parameter of the macro and the name logo are new in the shell.", "quantifier": "for all hosts, times of the day, depths and shells in which the names it uses are those of a new shell", "why_tests_cant": "the banner depends on the clock; the order and number of the effects and the names left behind are not visible in one run", "anchors": ["src/.default-dune-prelude:560-627", "src/.intro-dune-prelude:215-282"]}
{"id": "C131", "title": "Every description of the weather has one picture, and it fits its frame", "statement": "get-weather-ascii gives for each of the descriptions that the weather service is known to send the picture that the table of the script assigns to it, and the picture Unknown for every other value; there is always exactly one. Nothing is changed in the shell. Every picture has at most 5 lines of at most 13 characters, so it fits the widget of 15 columns and 7 rows in which it is shown.", "quantifier": "for all hosts, depths, argument expressions, values and shells in which the function is as the script defined it", "why_tests_cant": "the argument is any value; tests try some descriptions", "anchors": ["src/.default-dune-prelude:83-284"]}
{"id": "C132", "title": "The dashboard shows the banner, the calendar of the day and a cat, all of the same moment", "statement": "Without a key for the weather service, dashboard prints the welcome banner and then ten rows of fifty characters: the framed calendar of the day and, beside it, one of the cats of the script in a frame. It reads the clock, draws one number and does nothing else; only the names _, now, logo and default-widgets are new afterwards. cal gives the framed calendar of the day and leaves no name but _. Banner and calendar show the same day.", "quantifier": "for all hosts whose line breaker keeps short lines, all times up to the year 999999, depths, and shells prepared by the script", "why_tests_cant": "the result depends on the clock and on chance; the clock can move between two readings", "anchors": ["src/.default-dune-prelude:399-434", "src/.default-dune-prelude:709-735"]}
{"id": "C133", "title": "chess gives whether the player has won a match that follows the rules of the engine", "statement": "With a colour, chess plays a match: every position follows from the start by allowed moves, the engine makes its best moves at depth four, the player the typed ones; lines that are no move, or no allowed one, are passed over. The result is true exactly when the player mates; a farewell, a draw or a defeat give false. Only what the match calls for is shown and asked, a mate with the position before the last move. If the engine only makes allowed moves and the user says farewell at some time, the game ends; an engine with a move that is not allowed is asked again forever. With a colour there is no error; the end of the input ends the shell. Any other argument list is an error before anything is shown.", "quantifier": "for all engines, hosts, users, states and arguments", "why_tests_cant": "the matches are unboundedly long and depend on every line and on every move of the engine", "anchors": ["src/binary/init/chess_module.rs:1-80", "src/bin.rs:84-104"]}
{"id": "C134", "title": "shrewsay frames the lines of a text in a bubble above the shrew", "statement": "Both start-up scripts define shrew and shrewsay alike, and in a new shell the two definitions work. Given a text of lines that are not empty, do not end in a space and fit in the terminal, shrewsay asks for the size of the terminal twice and prints the rows of a bubble with the title, 26 columns to the right, two strokes and the picture of the shrew. The bubble has one row per line of the text; its inside is as wide as a single line, or for several lines as the longest one but at least half of the terminal, and never narrower than the title. Variables are not changed. What is printed fits in the terminal.", "quantifier": "for all texts, terminal widths, hosts that wrap text as documented, states and call depths", "why_tests_cant": "the bubble depends on the number and the lengths of the lines and on the width of the terminal", "anchors": ["src/.default-dune-prelude:442-450", "src/.default-dune-prelude:462-487", "src/.intro-dune-prelude", "src/binary/init/widget_module.rs", "src/binary/init/math_module.rs"]}
{"id": "C135", "title": "The default start-up script greets a new shell with exactly the dashboard and the hints", "statement": "After the shell's own definitions, the default start-up script, run in a new shell outside Windows while there is no file of secrets, ends without an error, and all that it asks and shows is, in this order: two looks for bat and lsd in the home directory, the title of the window, clearing the screen, a look for the secrets, the dashboard of the day with its banner, a second look for the secrets, the shrew with the advice to create the file, and two lines in colour about the key for the weather service. The bubble of the shrew names the home directory and is as wide as its longer line but at least half of the terminal.", "quantifier": "for all machines outside Windows, home directories of printable characters that leave room for the advice, terminal widths, days and times, and hosts that wrap text as documented and whose clock stands still", "why_tests_cant": "the script has 49 statements whose definitions capture each other; a test sees one day, one home directory and one terminal", "anchors": ["src/.default-dune-prelude", "src/bin.rs:573-594", "src/bin.rs:533-544", "src/binary/init/mod.rs"]}
{"id": "C136", "title": "The weather service is asked once, for exactly one address, and only with a key", "statement": "Once `set-weather-api-key` was given a key and a city, the two variables are set, nothing is asked or shown, and all other variables except `_`, `weather-api` and `weather` keep their values. From then on `weather-api units city` runs `curl --silent` exactly once with the address made of the city, the units and that key, and gives what the answer is as JSON: nothing for an empty answer, and an error that shows the answer if it is not JSON. With None as the key nothing is asked, one line in red is shown and the result is None. With a key alone only WEATHER-API-KEY is set.", "quantifier": "for all texts as key, city and units, all answers of the service that are text, and all shells in which the names used mean what they mean in a new shell", "why_tests_cant": "the key is captured when the function is defined, not read when it is called; a test would need the service and sees a few of its answers", "anchors": ["src/.default-dune-prelude:282-295", "src/.default-dune-prelude:351-356", "src/binary/init/parse_module.rs:33-48", "src/expr.rs:562-585"]}
