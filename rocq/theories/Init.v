(** src/binary/init/mod.rs:27-437 [init] and src/bin.rs:571-596: the variables
    of a new shell.

    Left out: the game [chess], which is only compiled on request; see
    Chess.v. *)

From Coq Require Import String Floats.SpecFloat.
From Verif Require Import Base Syntax Host Ops Parser ErrorFmt Text Builtins.

(** The kinds of systems the library [os_info] tells apart and the shell names;
    [OsOther] are the others.  src/bin.rs:375-402. *)
Inductive os_type : Type :=
| OsAlpine | OsAmazon | OsAndroid | OsArch | OsCentOS | OsDebian | OsMacos | OsFedora
| OsLinux | OsManjaro | OsMint | OsOpenSUSE | OsEndeavourOS | OsOracleLinux | OsPop
| OsRedhat | OsRedHatEnterprise | OsRedox | OsSolus | OsSUSE | OsUbuntu | OsWindows | OsOther.

(** src/bin.rs:375-402 [get_os_name]. *)
Definition get_os_name (t : os_type) : str :=
  lit match t with
      | OsAlpine => "alpine" | OsAmazon => "amazon" | OsAndroid => "android"
      | OsArch => "arch" | OsCentOS => "centos" | OsDebian => "debian"
      | OsMacos => "macos" | OsFedora => "fedora" | OsLinux => "linux"
      | OsManjaro => "manjaro" | OsMint => "mint" | OsOpenSUSE => "opensuse"
      | OsEndeavourOS => "endeavouros" | OsOracleLinux => "oraclelinux" | OsPop => "pop"
      | OsRedhat => "redhat" | OsRedHatEnterprise => "redhatenterprise"
      | OsRedox => "redox" | OsSolus => "solus" | OsSUSE => "suse" | OsUbuntu => "ubuntu"
      | OsWindows => "windows" | OsOther => "unknown"
      end%string.

(** src/bin.rs:404-431 [get_os_family]. *)
Definition get_os_family (t : os_type) : str :=
  lit match t with
      | OsAmazon | OsAndroid => "android"
      | OsMacos | OsSolus | OsRedox => "unix"
      | OsWindows => "windows"
      | OsOther => "unknown"
      | _ => "linux"
      end%string.

(** What the shell finds out about the computer when it starts.
    src/binary/init/fs_module.rs:43-73, src/binary/init/os_module.rs:5-12 and
    src/binary/init/shell_module.rs:7-42. *)
Record machine : Type := Machine {
  m_home : option str;
  m_cwd : option str;
  m_desk : option str;
  m_docs : option str;
  m_down : option str;
  m_os : os_type;
  m_version : str;
  m_exe : option str;
  m_suggestion : str;
  m_prelude : bool }.

(** [Expression::builtin(name, body, help)].  src/expr.rs:369-379. *)
Definition bi (id : bid) (name : string) : expr := EBuiltin (Bi id (lit name)).
Arguments bi id name%string_scope.

(** [b_tree_map! { .. }].  src/binary/init/mod.rs:28-437. *)
Definition tree (l : list (string * expr)) : bmap expr :=
  bm_of_list (map (fun kv => (lit (fst kv), snd kv)) l).

(** [crate::parse(source).unwrap().eval(env).unwrap()] for a function.
    src/binary/init/fn_module.rs:75-78. *)
Definition closure (source : string) (e : env) : expr :=
  match parse_script (lit source) with
  | SOk (EDo [ELambda p b c]) => ELambda p b (capture e p b c)
  | _ => ENone
  end.
Arguments closure source%string_scope e.

(** [env.define(name, value)] for each of the pairs.  src/binary/init/mod.rs:28-437. *)
Definition define_all (m : bmap expr) (e : env) : env :=
  fold_left (fun e kv => env_define (fst kv) (snd kv) e) m e.

(** [if let Some(dir) = dir { map.insert(name, ..) }] and
    [if let Ok(path) = path { .. } else { None }].
    src/binary/init/fs_module.rs:46-73, src/binary/init/shell_module.rs:13-19. *)
Definition known (name : string) (d : option str) : list (string * expr) :=
  match d with Some t => [(name, EString t)] | None => [] end.

(** src/binary/init/fs_module.rs:75-348; [dirs] holds the directories. *)
Definition fs_module (m : machine) : bmap expr := tree
  [ ("tree", bi KTree "tree");
    ("dirs", EMap (tree (known "home" (m_home m) ++ known "desk" (m_desk m)
                         ++ known "docs" (m_docs m) ++ known "down" (m_down m))));
    ("ls", bi KLs "ls"); ("glob", bi KGlob "glob"); ("head", bi KHead "head"); ("tail", bi KTail "tail"); ("canon", bi KCanon "canon");
    ("mkdir", bi KMkdir "mkdir"); ("rmdir", bi KRmdir "rmdir"); ("mv", bi KMv "mv");
    ("cp", bi KCp "cp"); ("rm", bi KRm "rm"); ("exists?", bi KExists "exists");
    ("is-dir?", bi KIsDir "isdir"); ("is-file?", bi KIsFile "isfile");
    ("read", bi KRead "read"); ("write", bi KWrite "write"); ("append", bi KAppend "append") ]%string.

(** src/binary/init/operator_module.rs:35-265. *)
Definition basic_operators : bmap expr := tree
  [ ("|", bi BPipe "|"); ("+", bi BAdd "+"); ("-", bi BSub "-");
    ("*", curry (bi BMul "*") 2); ("//", curry (bi BDiv "//") 2); ("%", curry (bi BRem "%") 2);
    ("&&", bi BAnd "&&"); ("||", bi BOr "||"); ("!", bi BNot "!");
    ("==", bi BEq "=="); ("!=", bi BNe "!="); ("<", bi BLt "<"); ("<=", bi BLe "<=");
    (">", bi BGt ">"); (">=", bi BGe ">="); ("@", bi BIndex "@") ]%string.

(** src/binary/init/operator_module.rs:267-298: the operators, given the
    variables defined before. *)
Definition operators (e : env) : bmap expr :=
  let e' := define_all basic_operators e in
  bm_insert (lit "<<") (bi KRead "read")
  (bm_insert (lit ">>") (closure "file -> contents -> fs@write file contents" e')
  (bm_insert (lit ">>>") (closure "file -> contents -> fs@append file contents" e')
   basic_operators)).

(** src/binary/init/math_module.rs:5-477, given the variables defined before. *)
Definition math_module (e : env) : bmap expr :=
  let fl (name : string) (what : string) (dbg : bool) :=
    (name, EBuiltin (Bi (MFloat (lit name) (lit what) dbg) (lit name))) in
  let rnd (name : string) := (name, EBuiltin (Bi (MRound (lit name)) (lit name))) in
  tree
  [ ("E", EFloat (S754_finite false 6121026514868073 (-51)));
    ("PI", EFloat (S754_finite false 7074237752028440 (-51)));
    ("TAU", EFloat (S754_finite false 7074237752028440 (-50)));
    ("max", closure "x -> y -> if (x > y) { x } else { y }" e);
    ("min", closure "x -> y -> if (x < y) { x } else { y }" e);
    ("l-rsh", curry (bi MLRsh "l-rsh") 2); ("a-rsh", curry (bi MARsh "a-rsh") 2);
    ("rsh", curry (bi MARsh "a-rsh") 2); ("lsh", bi MLsh "lsh");
    ("sum", bi MSum "sum"); ("product", bi MProduct "product"); ("fact", bi MFact "fact");
    ("abs", bi MAbs "abs"); rnd "floor"; rnd "ceil"; rnd "round"; rnd "trunc";
    fl "sinh" "sinh" true; fl "cosh" "cosh" true; fl "tanh" "tanh" true;
    fl "asinh" "asinh" true; fl "acosh" "acosh" true; fl "atanh" "atanh" true;
    fl "sinpi" "sinpi" true; fl "cospi" "cospi" true; fl "tanpi" "tanpi" true;
    ("isodd", bi MIsOdd "isodd"); ("iseven", bi MIsEven "iseven"); ("pow", bi MPow "pow");
    fl "ln" "natural log" false; ("log", curry (bi MLog "log") 2);
    fl "log2" "log2" false; fl "log10" "log10" false;
    fl "sqrt" "sqrt" false; fl "cbrt" "cbrt" false;
    fl "sin" "sin" false; fl "cos" "cos" false; fl "tan" "tan" false;
    fl "asin" "asin" false; fl "acos" "acos" false; fl "atan" "atan" false ]%string.

(** src/binary/init/log_module.rs:24-266. *)
Definition log_module : bmap expr := tree
  [ ("level", EMap (tree [ ("none", EInteger 0); ("trace", EInteger 5); ("debug", EInteger 4);
                           ("info", EInteger 3); ("warn", EInteger 2); ("error", EInteger 1) ]));
    ("set-level", bi GSetLevel "set-level"); ("get-level", bi GGetLevel "get-level");
    ("disable", bi GDisable "disable"); ("enabled?", bi GEnabled "enabled?");
    ("info", bi GInfo "info"); ("warn", bi GWarn "warn"); ("debug", bi GDebug "debug");
    ("error", bi GError "error"); ("trace", bi GTrace "trace"); ("echo", bi GEcho "echo") ]%string.

(** src/binary/init/dict_module.rs:25-180. *)
Definition dict_module : bmap expr := tree
  [ ("flatten", bi DFlatten "flatten"); ("items", bi DItems "items"); ("keys", bi DKeys "keys");
    ("values", bi DValues "values"); ("insert", bi DInsert "insert");
    ("remove", bi DRemove "remove"); ("has?", bi DHas "has?"); ("len", bi DLen "len");
    ("from-items", bi DFromItems "from-items"); ("union", bi DUnion "union");
    ("intersect", bi DIntersect "intersect"); ("difference", bi DDifference "difference") ]%string.

(** src/binary/init/err_module.rs:4-11. *)
Definition err_module : bmap expr := tree
  [ ("try", bi ETry "try"); ("codes", EMap error_codes) ]%string.

(** src/binary/init/shell_module.rs:7-42. *)
Definition shell_module (m : machine) : bmap expr := tree
  [ ("author", EString (lit "Adam McDaniel (https://adam-mcdaniel.net)"));
    ("git", EString (lit "https://github.com/adam-mcdaniel/dune"));
    ("homepage", EString (lit "https://github.com/adam-mcdaniel/dune"));
    ("version", EString (lit "0.2.0-alpha"));
    ("path", match m_exe m with Some p => EString p | None => ENone end);
    ("suggestion", EString (m_suggestion m));
    ("license", EString (lit "APACHE-2.0"));
    ("prelude", match m_home m with
                | Some h => if m_prelude m then EString (path_join h (lit ".dune-prelude")) else ENone
                | None => ENone
                end) ]%string.

(** src/binary/init/os_module.rs:5-32. *)
Definition os_module (m : machine) : bmap expr := tree
  [ ("name", EString (get_os_name (m_os m))); ("family", EString (get_os_family (m_os m)));
    ("version", EString (m_version m)); ("exit", bi OExit "exit"); ("cd", bi OCd "cd") ]%string.

(** src/binary/init/widget_module.rs:4-11. *)
Definition widget_module : bmap expr := tree
  [ ("create", bi WCreate "create"); ("joinx", bi WJoinx "joinx"); ("joiny", bi WJoiny "joiny") ]%string.

(** src/binary/init/time_module.rs:7-15. *)
Definition time_module : bmap expr := tree
  [ ("sleep", bi ISleep "sleep"); ("now", bi INow "now") ]%string.

(** src/binary/init/console_module.rs:159-188. *)
Definition keys : bmap expr :=
  let sq (name code : string) := (name, EString (ESC ++ lit code)) in
  tree
  [ ("enter", EString NL); ("backspace", EString [8%N]); ("delete", EString [127%N]);
    sq "left" "[D"; sq "right" "[C"; sq "up" "[A"; sq "down" "[B"; sq "home" "[H"; sq "end" "[F";
    sq "page-up" "[5~"; sq "page-down" "[6~"; ("tab", EString [9%N]); sq "esc" "";
    sq "insert" "[2~"; sq "f1" "[11~"; sq "f2" "[12~"; sq "f3" "[13~"; sq "f4" "[14~";
    sq "f5" "[15~"; sq "f6" "[17~"; sq "f7" "[18~"; sq "f8" "[19~"; sq "f9" "[20~";
    sq "f10" "[21~"; sq "f11" "[23~"; sq "f12" "[24~"; ("null", EString [0%N]);
    sq "back-tab" "[Z" ]%string.

(** src/binary/init/console_module.rs:6-192. *)
Definition console_module : bmap expr :=
  let fixed (name code : string) := (name, EBuiltin (Bi (CFixed (lit code)) (lit name))) in
  tree
  [ ("width", bi CWidth "width"); ("height", bi CHeight "height"); ("write", bi CWrite "write");
    ("title", bi CTitle "title"); ("clear", bi CClear "clear"); ("flush", bi CFlush "flush");
    ("mode", EMap (tree
       [ ("raw", bi (CMode true) "raw"); ("cooked", bi (CMode false) "cooked");
         fixed "alternate" "[?1049h"; fixed "normal" "[?1049l" ]));
    ("cursor", EMap (tree
       [ ("move-to", bi CMoveTo "move-to"); ("move-up", bi (CMove 65%N) "move-up");
         ("move-down", bi (CMove 66%N) "move-down"); ("move-left", bi (CMove 68%N) "move-left");
         ("move-right", bi (CMove 67%N) "move-right"); fixed "save-position" "[s";
         fixed "restore-position" "[u"; fixed "hide" "[?25l"; fixed "show" "[?25h" ]));
    ("keyboard", EMap (tree
       [ ("read-line", bi CReadLine "read-line"); ("read-password", bi CReadPassword "read-password");
         ("read-key", bi CReadKey "read-key"); ("keys", EMap keys) ])) ]%string.

(** src/binary/init/rand_module.rs:5-12. *)
Definition rand_module : bmap expr := tree
  [ ("int", bi RInt "int"); ("choose", bi RChoose "choose"); ("shuffle", bi RShuffle "shuffle") ]%string.

(** src/binary/init/fn_module.rs:73-109. *)
Definition fn_module : bmap expr := tree
  [ ("id", closure "x -> x" env_new); ("const", closure "x -> y -> x" env_new);
    ("flip", closure "f -> x -> y -> f y x" env_new);
    ("compose", closure "f -> g -> x -> f (g x)" env_new);
    ("apply", bi FApply "apply"); ("curry", bi FCurry "curry"); ("map", bi FMap "map");
    ("filter", bi FFilter "filter"); ("reduce", bi FReduce "reduce"); ("?", bi FCond "?") ]%string.

(** src/binary/init/fmt_module.rs:4-112. *)
Definition fmt_module : bmap expr :=
  let style (name : string) (code : string) := (name, EBuiltin (Bi (TStyle (lit code)) (lit name))) in
  tree
  [ ("strip", bi TStrip "strip"); ("wrap", bi TWrap "wrap"); ("href", bi THref "href");
    style "bold" "1"; style "faint" "2"; style "italics" "3"; style "underline" "4";
    style "blink" "5"; style "invert" "7"; style "strike" "9";
    style "black" "90"; style "red" "91"; style "green" "92"; style "yellow" "93";
    style "blue" "94"; style "magenta" "95"; style "cyan" "96"; style "white" "97";
    ("dark", EMap (tree [ style "black" "30"; style "red" "31"; style "green" "32";
                          style "yellow" "33"; style "blue" "34"; style "magenta" "35";
                          style "cyan" "36"; ("white", bi TDarkWhite "white") ])) ]%string.

(** src/binary/init/parse_module.rs:6-13. *)
Definition parse_module : bmap expr := tree
  [ ("toml", bi PToml "toml"); ("json", bi PJson "json"); ("expr", bi PExpr "expr") ]%string.

(** src/binary/init/string_module.rs:30-445. *)
Definition string_module : bmap expr := tree
  [ ("to-string", bi SToString "to-string"); ("caesar", bi SCaesar "caesar-cipher");
    ("len", bi LLen "len"); ("get-width", bi SGetWidth "get-width");
    ("is-whitespace?", bi SIsWhitespace "is-whitespace?"); ("is-alpha?", bi SIsAlpha "is-alpha?");
    ("is-alphanumeric?", bi SIsAlphanumeric "is-alphanumeric?");
    ("is-numeric?", bi SIsNumeric "is-numeric?"); ("split", bi SSplit "split");
    ("to-lower", bi SToLower "to-lower"); ("to-upper", bi SToUpper "to-upper");
    ("to-title", bi SToTitle "to-title"); ("is-lower", bi SIsLower "is-lower");
    ("is-upper", bi SIsUpper "is-upper"); ("is-title", bi SIsTitle "is-title");
    ("rev", bi LRev "rev"); ("join", bi SJoin "join"); ("lines", bi SLines "lines");
    ("chars", bi SChars "chars"); ("words", bi SWords "words");
    ("paragraphs", bi SParagraphs "paragraphs"); ("split-at", bi SSplitAt "split-at");
    ("trim", bi STrim "trim"); ("trim-start", bi STrimStart "trim-start");
    ("trim-end", bi STrimEnd "trim-end"); ("replace", bi SReplace "replace");
    ("starts-with?", bi SStartsWith "starts-with?"); ("ends-with?", bi SEndsWith "ends-with?");
    ("contains?", bi SContains "contains?") ]%string.

(** src/binary/init/list_module.rs:5-42. *)
Definition list_module : bmap expr := tree
  [ ("list", bi LList "list"); ("tail", bi LTail "tail"); ("head", bi LHead "head");
    ("chunk", bi LChunk "chunk"); ("cons", bi LCons "cons"); ("append", bi LAppend "append");
    ("len", bi LLen "len"); ("rev", bi LRev "rev"); ("range", bi LRange "range");
    ("foldl", bi LFoldl "foldl"); ("foldr", bi LFoldr "foldr"); ("zip", bi LZip "zip");
    ("unzip", bi LUnzip "unzip"); ("take", curry (bi LTake "take") 2);
    ("drop", curry (bi LDrop "drop") 2); ("split-at", bi LSplitAt "split-at");
    ("nth", bi LNth "nth") ]%string.

(** src/binary/init/sys_module.rs:6-117. *)
Definition sys_module : bmap expr := tree
  [ ("parse", bi YParse "parse"); ("quote", bi YQuote "quote"); ("eval", bi BEval "eval");
    ("exec", bi BExec "exec"); ("include", bi YInclude "include"); ("cd", bi YCd "cd");
    ("cwd", bi YCwd "cwd"); ("import", bi YImport "import"); ("env", bi YEnv "env");
    ("set", bi YSet "set"); ("unset", bi YUnset "unset"); ("defined?", bi YDefined "defined?") ]%string.

(** src/binary/init/mod.rs:59-437: the global functions, in the order of their
    definition (the last definition of a name counts). *)
Definition globals : list (string * expr) :=
  [ ("exit", bi OExit "exit"); ("cd", bi OCd "cd"); ("quit", bi OExit "exit");
    ("help", bi BHelp "help"); ("print", bi BPrint "print"); ("debug", bi BDebug "debug");
    ("println", bi BPrintln "println"); ("echo", bi BPrintln "println");
    ("input", bi BInput "input"); ("to", bi BTo "to"); ("str", bi BStr "str"); ("int", bi BInt "int");
    ("insert", bi BInsert "insert"); ("keys", bi BKeys "keys"); ("vals", bi BVals "vals");
    ("vars", bi BVars "vars"); ("len", bi BLen "len"); ("lines", bi BLines "lines");
    ("eval", bi BEval "eval"); ("exec", bi BExec "exec"); ("unbind", bi BUnbind "unbind");
    ("report", bi BReport "report") ]%string.

(** src/binary/init/fs_module.rs:43-73: the directories of the user. *)
Definition define_dirs (m : machine) : env :=
  let def (x : string) (d : option str) (e : env) :=
    match d with Some t => env_define (lit x) (EString t) e | None => e end in
  let set (d : option str) (e : env) := match d with Some t => env_set_cwd t e | None => e end in
  def "DOWN"%string (m_down m) (def "DOCS"%string (m_docs m) (def "DESK"%string (m_desk m)
    (set (m_cwd m) (def "HOME"%string (m_home m) (set (m_home m) env_new))))).

(** src/binary/init/mod.rs:27-437 [init], on a new environment. *)
Definition init (m : machine) : env :=
  let e1 := env_define (lit "fs") (EMap (fs_module m)) (define_dirs m) in
  let ops := operators e1 in
  let e2 := define_all ops e1 in
  let math := math_module e2 in
  let std := tree
    [ ("log", EMap log_module); ("math", EMap math); ("dict", EMap dict_module);
      ("shell", EMap (shell_module m)); ("err", EMap err_module); ("os", EMap (os_module m));
      ("widget", EMap widget_module); ("time", EMap time_module);
      ("rand", EMap rand_module); ("fn", EMap fn_module); ("console", EMap console_module);
      ("fmt", EMap fmt_module); ("parse", EMap parse_module); ("fs", EMap (fs_module m)); ("ops", EMap ops);
      ("string", EMap string_module); ("list", EMap list_module); ("sys", EMap sys_module) ]%string in
  let e3 := define_all std (env_define (lit "std") (EMap std) e2) in
  fold_left (fun e kv => env_define (lit (fst kv)) (snd kv) e) globals e3.

(** src/bin.rs:571-596: the definitions made by [main]. *)
Definition main_source : list string :=
  [ "let clear = _ ~> console@clear ()";
    "let pwd = _ ~> echo CWD";
    "let join = sep -> l -> {
            let sep = str sep;
            fn@reduce (x -> y -> x + sep + (str y)) (str l@0) (list@tail l)
        }";
    "let prompt = cwd -> fmt@bold ((fmt@dark@blue ""(dune) "") + (fmt@bold (fmt@dark@green cwd)) + (fmt@bold (fmt@dark@blue ""$ "")))";
    "let incomplete_prompt = cwd ->
            ((len cwd) + (len ""(dune) "")) * "" "" + (fmt@bold (fmt@dark@yellow ""> ""));" ]%string.
