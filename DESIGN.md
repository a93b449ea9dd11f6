# Formal model of the Dune shell: design

Subject: `adam-mcdaniel/dune`, the sources in `/repo` (read as text, never built or
run).  Tool: Coq 8.16.1, standard library only.  Everything is in
`rocq/theories/` (logical path `Verif`).

## Shape of the development

* `Base.v` .. model files: total, computable Gallina functions that follow the
  Rust functions one by one.  Every definition cites the file and lines it
  models and lists its simplifications.
* `*Spec.v`: small, independent specifications used in theorem statements.
* `*Facts.v`: proofs.
* `P_*.v`: the property theorems only (`Theorem ... exact lemma. Qed.`), each
  followed by a concrete case meeting its hypotheses and by `Print Assumptions`.

### How the code is represented

* Text is a list of Unicode scalar values (`N`); byte offsets are computed with
  UTF-8 lengths, and slicing off a character boundary is an explicit panic.
* 64 bit integers are `Z` with explicit range checks and wrapping; floats are
  `SpecFloat.spec_float` (binary64, pure Gallina, no axioms).
  A length or position turned into an integer (`as Int`) is cut to 64 bits
  (`as_int`).
* `BTreeMap` is a key-sorted association list.
* The evaluator has a fuel argument that is unrelated to the program's own
  recursion limit.  Running out of fuel is its own outcome `RFuel`, which all
  statements exclude (or prove impossible); results do not depend on fuel.
* Panics, process exit and errors are separate explicit outcomes.
* The outside world is an arbitrary oracle: a function from the history of
  requests and answers to the next answer.  All theorems quantify over it.
  The history (trace) records every process, output and file request.
* Formatting of floats, of non-ASCII characters in debug output, of tables
  (`prettytable`) and of wrapped lines (`textwrap`), and the JSON and TOML
  readers are parameters (`host` record), quantified in all theorems; so are the
  functions of the C mathematics library.  `FloatFmt.v` and `Table.v` model the
  printing of floats and of tables, and put them in place of those parameters.
* nom combinators (`alt`, `many0`, `many1`, `separated_list0`, `opt`, ...) are
  modelled after nom 7.0.0, keeping the difference between `Error` and
  `Failure`.

## Properties

See `properties.jsonl` for full statements and `MANIFEST.json` for status.
Rows of properties without an entry in `MANIFEST.json` describe the plan, not a
result.

| id | what is modelled, how it is proved |
|----|------------------------------------|
| C01 | `P_Tok.v`: induction over the token loop (`TokFacts.v`), ranges partition the text |
| C02 | `P_Tok.v`: tokenizer with explicit panics; refuted by a string literal with backslash + multi-byte character (a whole family crashes); absence of that pair suffices |
| C03 | `Highlight.v`, `P_Highlight.v`: highlighter and escape stripper; composition is the identity |
| C04 | `P_Tok.v`: ranges within their token, non-empty, ordered, on character boundaries |
| C05 | `P_Parse.v`: parser is invariant under a token relation ignoring positions (`LayoutFacts.v`) |
| C06 | `P_Parse.v`: parser with a bound on call depth; a linear bound suffices for every token list (`ParserFacts.v`) and the result does not depend on it (`FuelFacts.v`) |
| C07 | `P_Parse.v`: accepted string tokens can be unescaped (`StringFacts.v`); the parser reaches no other panic |
| C08 | `P_Keep.v`: operands of the parsed expression and of the tokens are the same multiset (`LeafSpec.v`, `LeafFacts.v`: a segment invariant of every grammar rule); refuted for an operand before `!` and for repeated map keys, which the theorem excludes |
| C09 | `P_Prec.v`: a stratified grammar of operator expressions; each word sequence of the grammar parses to its tree (`PrecFacts.v`, `ForwardFacts.v`, `WordFacts.v`) |
| C10 | `P_Round.v`: refuted as stated (conditionals, unparenthesised calls in calls, the null character, the empty block, range loops). For the class `readable` (`RoundSpec.v`, with floats that are no whole numbers): the exact expression that comes back (`C10_reread`), and it is the printed one just when there is no conditional in it (`C10_round_trip_partial`). `RoundLex.v`: tokens of the printed text, `RoundParse.v`: their expression |
| C11 | `P_Literal.v`: tokenizer on numerals (`LexFacts.v`), range check, decimal printing; superfluous zeros are rejected |
| C12 | `P_Literal.v`: tokenizer on quoted texts (`LexFacts.v`), unescape |
| C13 | environments as scope chains; direct induction |
| C14-C23 | evaluator; unfolding and induction on fuel / lists |
| C24 | evaluator; fuel bound from the recursion limit, builtin-free invariant |
| C25 | refuted: a self-applying function under `+` runs forever |
| C26, C27 | evaluator with trace; equation for command application; no requests without application |
| C28 | invariant over evaluator and all modelled builtins |
| C29, C30 | builtins `eval`, `exec`, `try` |
| C31 | `P_Ops.v`: two code tables; refuted, with the exact set of kinds that agree |
| C32, C33 | arithmetic on `Z` with 64 bit checks; remainder refuted (crash on zero) |
| C34, C35 | comparison functions on expressions |
| C36, C37, C41, C42 | `P_List.v`: list builtins; laws stated with positions, lengths and concatenation |
| C38 | `P_List.v`: calls as steps of the relations `in_order` and `folds`, which thread the state and stop at the first failure. `P_Staged.v`: the forms with fewer arguments, by following the closures that the parsed sources evaluate to (`closure`, `inside`) |
| C39 | `P_List.v`: refuted, `list@head` returns `None` for every non-empty list |
| C40 | `P_Dict.v`: maps as sorted lists of entries; laws stated with membership of entries |
| C43 | `P_Text.v`: `str::split` as a left to right scan; refuted with a variable `arg0` and for `string@len` on non-ASCII text |
| C44 | `P_Text.v`: `rotated` states the shift modulo 26; refuted for negative shifts (cut to 8 bits), both overflow modes |
| C45 | `P_Math.v`: inductive factorial, `exactly` (C32) for sums; refuted on overflow, large exponents and negative odd numbers |
| C46 | `P_Text.v`: escape stripper as a state machine; refuted for dark white and `href` |
| C47 | `P_Repl.v`: the loop of `bin.rs` (`Repl.v`) on any sequence of editor results; `ReplSpec.v` states how lines fall into inputs, in exactly one way, and what handling one input is |
| C48 | `P_Pipe.v`: relations `flows` (mixed stages) and `chain` (requests of programs only) over an arbitrary outside world |
| C49 | `Fs.v`: file trees, the calls of `std::fs` with failures at any point (`fault`), `copy_path`, `move_path`; `FsHost.v` makes them the outside world of the shell. `FsSpec.v` states what is at each path (`holds`). `P_Fs.v`: induction over the height of the source; refuted: a directory copied into itself is copied for ever |
| C50 | `P_Math.v`: printed text stated with `writes`, lines with `has_lines` |
| C51 | `P_Range.v`: all integers of a value (also in code and captured variables, `RangeSpec.v`) fit; an invariant of parser, evaluator and every modelled builtin (`RangeFacts.v`), for whole sessions |
| C52 | `P_ErrLine.v`: printed lines stated with `whole_lines`; refuted for errors at line starts (number one too small) and for long lines with overflow checks (crash) |
| C53 | evaluator; refuted for operands whose value is code. `P_Once.v`: the state in which an arithmetic operator fails |
| C54 | `P_Fn.v`: scopes of curried functions (`CurryFacts.v`); all arguments at once or one at a time; refuted for `+` on strings and for `fn@curry` with a variable `arg0`. `P_Curry.v`: `fn@curry` on functions of the user |
| C55 | `P_Fn.v`: the parsed sources of `id`, `const`, `flip`, `compose`; how the given functions act on values is a hypothesis |
| C56 | `P_Dict.v`: both flatten functions against the inductive relations `contents` and `leaves` |
| C57 | refuted by a program: the inner function of a curried definition captures the variables of the caller |
| C58 | unary minus with both overflow-check modes; refuted for the smallest integer, exact outcome proved |
| C59 | `P_List.v`: refuted, a position outside the list panics; exact outcome proved |
| C60, C61 | `P_Main.v`: `main` of `bin.rs` with its command line arguments; refuted: the status is 0 after errors, and `-x` evaluates the value again |
| C62 | `P_Main.v`: what is done with the value of an input |
| C63 | `P_Escape.v`: `stands_for` relates the contents of a literal and the text, both directions |
| C64, C65 | `P_Files.v`: the file functions of the shell on the file trees of `Fs.v` (`FilesFacts.v`); UTF-8 in both directions in `Utf8Facts.v` |
| C66 | `P_Rand.v`: random numbers are answers of the outside world, so "every value possible" is stated with a host that gives chosen numbers (`with_numbers`). Refuted: an empty range or list crashes the shell |
| C67 | `P_Lines.v`: lines as an inductive relation (`LinesSpec.v`), files as in C64. Refuted: `fs@tail` gives the lines in reverse order |
| C68 | `P_Sys.v`: the path as an inductive relation (`joined`), the operating system answers anything |
| C69 | `P_Sys.v`: refuted by a program (`cd` in a function); `sys@cd` exactly; agreement outside functions |
| C70 | `P_Sys.v`: `loads` relates the argument, the answers of the operating system and the text read |
| C71 | `P_Sys.v`: `written` and `whole_part` say which integer a text or float stands for, without the parser of the model |
| C72 | `P_Sys.v`: refuted in one part: `set` stores the expression and not its value; the rest proved |
| C73 | `P_Sys.v`: refuted in one part: `exit 4294967296` reports 0; exact code proved |
| C74 | `P_Widget.v`, words in `WidgetSpec.v`: refuted for titles with a line feed; for other titles and wrapped lines that fit, the frame is exact; text wrapping is the parameter `h_wrap` |
| C75 | `P_Widget.v`: joinx proved; joiny refuted (`trim` drops blank rows at the ends, blank text crashes), exact result given the trimmed texts proved |
| C76 | `P_Dir.v`, words in `DirSpec.v`: proved on the disk of `FsHost.v` without failing calls |
| C77 | `P_Dir.v`: refuted (depth ignored, unreadable directories look empty); the root crashes; exact description proved for readable directories below the root |
| C78 | `P_Dir.v`: proved for well-formed patterns (matching is the answer to `RqGlob`); malformed patterns crash, proved |
| C79 | `P_Term.v`: refuted for negative integers (they wait 2^64 + n ms); exact time proved for integers and finite floats; `now` proved |
| C80 | `P_Term.v`, a small ECMA-48 terminal in `TermSpec.v`: write, clear and move-to proved; moving by 0 and the title refuted |
| C81 | `P_Term.v`: refuted for function keys; proved for the other keys |
| C82 | `P_Data.v`, words in `DataSpec.v`: proved but for the empty text, which `parse@json` accepts (refuted); the libraries are the parameters `h_json` and `h_toml` |
| C83 | `P_Data.v`: proved |
| C84 | `Editor.v`, `P_Editor.v`, words in `EditorSpec.v`: refuted for the line `t` and for parts of commands; proved for all other beginnings of commands; exact hint proved |
| C85 | `P_Editor.v`: `FilenameCompleter` is a parameter; refuted in the fallback branch (cursor inside the line, start position of another text); proved for the cursor at the end |
| C86 | `P_Start.v`, words in `StartSpec.v`: proved but for `os@family` of Amazon Linux and Solus (refuted) |
| C87 | `P_Str.v`, `TextSpec.v`, `TrimFacts.v`: trimming against a relation with a unique result |
| C88 | `P_Str.v`, `StrSpec.v`: words as a relation with a unique result; paragraphs refuted (`a`, five line feeds, `b`), exact pieces by `cut` |
| C89 | `P_Str.v`, `StrSpec.v`: replacement from left to right as a relation with a unique result; refuted that the old text is gone (`aabb` without `ab`) |
| C90 | `P_Case.v`, `CaseSpec.v`: position by position; refuted for `is-upper` of texts with spaces |
| C91 | `P_Case.v`, `CaseSpec.v`: bytes of UTF-8; refuted by a position inside a character |
| C92 | `P_Case.v`: induction over the lines |
| C93 | `P_Print.v`, `PrintSpec.v`: printing as a relation; refuted for `println` without arguments |
| C94 | `P_Print.v`: the three answers of the line editor; console reading |
| C95 | `P_Print.v`, `PrintSpec.v`: explaining as a relation; refuted that everything is explained (`math@max`, `fs`) |
| C96 | `P_Num.v`, `NumSpec.v`: shifts in integer arithmetic; refuted for amounts outside 0 to 63 (`lsh 1 64` is 1) |
| C97 | `P_Num.v`: absolute values in rational numbers; refuted for the least integer |
| C98 | `P_Num.v`, `NumSpec.v`, `FloatSpec.v`, `FloatFacts.v`: `floor` and so on are the functions of rational numbers |
| C99 | `P_Float.v`, `FloatOpSpec.v`, `FloatFacts.v`: `rounded` (nearest, ties to even) of the rational result; tables for infinities and NaN, which leave no case out |
| C100 | `P_Float.v`: tokens of a literal, its value against `rounded` |
| C101 | `P_Float.v`: comparison of mantissas and exponents is that of rational numbers; refuted for mixed numbers (`1 < 1.5` is False) |
| C102 | `P_FloatFmt.v`, model `FloatFmt.v`: the chosen decimal number is rounded to the float and none with a greater exponent is; refuted for whole floats (`1.0` is printed as `1`) |
| C103 | `P_ErrShow.v`, `ErrPosFacts.v`: every position in an error of the parser is that of a token or the end of the text, so slicing succeeds; with overflow checks one subtraction can fail (`C103_refuted`), no other |
| C104 | `CrashSpec.v` (the list), `CrashFacts.v`, `P_Crash.v`: a judgement (crashes of a computation are listed or come from an evaluation) for all builtin functions, then induction on the evaluator; each entry of the list has a witness |
| C105 | `P_Cond.v`: equivalences for `fn@?` and `fn@apply` by the rules for bind; `list@list` refuted with its exact outcome |
| C106 | `P_Names.v`: by cases of `parse_script`, which never runs out of fuel (C06) and gives a block (`C106_block`); `sys@quote` refuted with its exact outcome |
| C107 | `P_Names.v`: sorted association lists, and C28 for the enclosing scopes |
| C108 | `P_Class.v`: character by character; ASCII exactly, other characters by the parameter of the host |
| C109 | `TidySpec.v` collects all maps and scopes of an expression (also inside code, closures and captured environments); `TidyFacts.v` proves for the parser, each builtin function and the evaluator that they stay in order, by the same kind of judgement as C51; `P_Tidy.v`: the start environment by computation over all shapes of `init`, sessions by induction. The corollary `C109_all_variables` removes the hypotheses of C107. The maps of the model are lists of pairs, so the invariant is not true by construction: it says that the model uses them as the ordered maps (`BTreeMap`) they stand for. |
| C110 | `SqrtSpec.v`: nearest to an irrational root is stated by squares of the middles between floats; `SqrtFacts.v`: the result is the nearest float to all fractions in a cell around the root, so it is the nearest to the root; squares of whole numbers by an estimate of the rounding error of the square; `P_Elem.v`: the builtin |
| C111 | `P_Elem.v`: sin, ln, ... are parameters of the host (`h_libm`); what the code computes around them (conversion of integers, the product with pi, the quotient of logarithms as Rust's `f64::log` computes it) is modelled with rounded operations. Refuted: logarithms of powers of the base are not exact |
| C112 | `P_Elem.v`: the formula of math_module.rs:152 is modelled operation by operation (`f64_fact`) with the host's `ln` and `exp`. Refuted for 0.0 on all hosts and for 1.0 on all hosts with ln 1 = 0 and exp 0 = 1: the formula has `exp(ln f * ln f)` in place of `exp(f * ln f - f)` |
| C113 | `ModeSpec.v` extends the screen of C80 by an alternate screen and a visible cursor, `P_Mode.v` |
| C114 | `P_Mode.v`; `textwrap` is a parameter (`h_wrap`). Refuted: negative widths |
| C115 | `Prelude.v`: the texts of both start-up scripts; `PreludeFacts.v`: the programs the parser of the model reads in them; `CalendarDefs.v`: the definitions of the calendar in them and what `prepared` means; `RunFacts.v`: rules and a tactic to run programs with unknown integers; `CalendarSpec.v`: the calendar; `CalendarFacts.v`: what the functions compute; `GregorianFacts.v`: why it is right; `P_Calendar.v` |
| C116 | `CalendarSpec.v` defines days of the week by counting; `TruncFacts.v`: truncated float quotients of integers up to 2^53 are integer quotients; `GregorianFacts.v`: the sum of the algorithm changes by one from a day to the next modulo 7; `P_Calendar.v`. Refuted for other years |
| C117 | `PageSpec.v` says what a page is; `CalendarRun.v`: the loops of make-calendar by invariants; `CalendarPage.v`: the text is made of cells, seven to a line; `P_Calendar.v`. Refuted for years of 17 digits: a crash |
| C118 | `Table.v`: printing of lists and maps with the layout of `prettytable`; `TableSpec.v`: frames; `TableFacts.v`; `P_Table.v`. That frames fit the terminal is refuted |
| C119 | as C118; which values crash a checking build is characterised exactly |
| C120 | `Init.v`: definitions of the main program, `Repl.v`: `startup`, `prompt`; `PromptSpec.v`: how a text with colour codes looks; `P_Prompt.v`, by symbolic execution of the definitions |
| C121 | as C120; the empty list is refuted: its text is "None" |
| C122 | `Prelude.v`: text of the script; `HelperSpec.v`: the definitions and what they use; `P_Helpers.v`, by symbolic execution; that exit reports its status is refuted: it is always 0 |
| C123 | as C122; refuted when the caller has a variable called -X or -r: its value replaces the option |
| C124 | `Prelude.v`, `GlobSpec.v`: the names used, texts that contain another once; `P_Glob.v` from C48 (pipelines), C38 (filter with one argument) and C42 (split); refuted for texts that contain the pattern twice |
| C125 | as C124; `P_Glob.v` from C29 (eval and exec), C64 (read) and C83 (parse@expr); refuted for the variable file, which stays behind |
| C126 | `Prelude.v`: text of the script; `ReportSpec.v`: the definitions, the message, what a report prints; `P_Report.v`, by induction over the values reported; that no variable changes is refuted |
| C127 | as C126; with C95 for the built-in function; a variable with the name of a topic hides it (refuted) |
| C128 | `Init.v`: `operators`, `closure`; `RedirectSpec.v`: the shell, what the parser makes of a redirection; `P_Redirect.v`, with C48 for the pipeline and C64 for the disk |
| C129 | `Init.v`: `math_module`, `closure`; `P_Extreme.v`, with C34 for the comparisons; mixed numbers refuted |
| C130 | `Prelude.v`: the two scripts; `BannerSpec.v`: the texts of the banner, the sky by the hour; `P_Banner.v`: run of the macro for every time |
| C131 | `Prelude.v`: the script; `WeatherSpec.v`: the table from descriptions to names of pictures; `P_Weather.v`: run of the chain of conditions for every value, uniqueness, size of the pictures |
| C132 | `Prelude.v`: the script; `DashSpec.v`: the rows of the dashboard, what is expected of the line breaker; `P_Dash.v`, with C74, C75, C117 and C130; `P_DashDay.v`: the definitions, `cal`, and the refutation at midnight |
| C133 | `Chess.v`: `chess_module.rs` with the crate chess-engine as a parameter; `ChessSpec.v`: matches, lines, users; `P_Chess.v`: a finished game is a match and the other way round, termination, an engine that cheats, and the refutation for an empty argument list |
| C134 | `ShrewSpec.v`: the two definitions, the room in the bubble, what is printed; `P_Shrew.v`: same definition in both scripts, a new shell has the names, a call prints exactly the bubble, the strokes and the picture; refuted that it fits in the terminal. Missing: texts that textwrap breaks or trims, which are up to the crate |
| C135 | `HelloSpec.v`: a ready shell, the requests in order, the advice; `P_Hello.v`: the definitions of the script one after the other, from the helpers (C122) to the calendar (C115); `P_Hello2.v`: the last seven statements with the dashboard (C132) and the shrew (C134), the script as a whole, and that the shell's own definitions make it ready. Out of scope: Windows, a file of secrets that exists, home directories too long for the terminal |
| C136 | `ApiSpec.v`: the definition in the script, the address, what is made of the answer; `P_Api.v`: the pipe of `curl` into `parse@json`, the captured key, the macro of two arguments. Out of scope: answers that are not UTF-8, and the widget `weather` makes of the data |

## Which parts of the code are modelled

| file in `/repo/src` | model | left out |
|---|---|---|
| `tokenizer.rs`, `tokens.rs` | `Tokenizer.v` | |
| `parser.rs` | `Parser.v` | |
| `expr.rs`, `env.rs` | `Syntax.v`, `Ops.v`, `Text.v` (printing), `Table.v` (lists and maps), `Eval.v`, `Monad.v` | |
| `error.rs` | `ErrorFmt.v` | |
| `lib.rs` | `Base.v`, `Parser.v` | |
| `bin.rs` | `Highlight.v`, `Editor.v` (hints, completion), `Repl.v` (loop and `main`), `Init.v`, `Text.v` | the line editor itself, the file of the history |
| `.default-dune-prelude`, `.intro-dune-prelude` | `Prelude.v` | functions without a theorem are only parsed |
| `binary/init/mod.rs` and all `*_module.rs` | `Builtins.v`, `Init.v`, `Fs.v`, `Chess.v` | the crate chess-engine (a parameter of `Chess.v`); `chess` is compiled on request only and not among the variables of `Init.v` |

Third-party code (line editor, terminal, clock, random numbers, `textwrap`, JSON,
TOML, `glob`) appears as requests to the outside world or as parameters.

## Trusted base

* The Coq kernel (also re-checked with `coqchk`).  No axioms: `Print
  Assumptions` of every property theorem is `Closed under the global context`
  (each theorem file prints it).  A context-wide listing (`coqchk -o`) also
  names the declarations of the module type in the library file
  `Coq.ssr.ssrunder` (`Under_rel` and relatives), which the standard library
  loads through `ssreflect`; no theorem depends on them.
* The transcription of the Rust source into Gallina, as cited per definition.
* The behaviour of the Rust standard library and of third-party crates (nom,
  snailquote, detached-str, prettytable) as transcribed from their documentation.
* Not modelled: memory exhaustion and machine stack depth (a non-terminating
  recursion is represented by needing unbounded fuel), drawing on the terminal,
  the line breaking of `textwrap`.
