-Q theories Verif
theories/Base.v
theories/Syntax.v
theories/Host.v
theories/Ops.v
theories/Tokenizer.v
theories/Parser.v
theories/Monad.v
theories/ErrorFmt.v
theories/Text.v
theories/Builtins.v
theories/Eval.v
theories/MonoFacts.v
theories/EvalSpec.v
theories/EvalFacts.v
theories/MapFacts.v
theories/CoreFacts.v
theories/Init.v
theories/Demo.v
theories/CmdFacts.v
theories/TermFacts.v
theories/P_Scope.v
theories/P_Eval.v
theories/ScopeFacts.v
theories/P_Outer.v
theories/LibFacts.v
theories/OpsSpec.v
theories/OpsFacts.v
theories/OrderFacts.v
theories/P_Ops.v
theories/LibSpec.v
theories/ListFacts.v
theories/P_List.v
theories/DictFacts.v
theories/P_Dict.v
theories/CurryFacts.v
theories/P_Fn.v
theories/TextFacts.v
theories/P_Text.v
theories/P_Math.v
theories/P_Pipe.v
theories/TokFacts.v
theories/P_Tok.v
theories/Highlight.v
theories/P_Highlight.v
theories/ParserFacts.v
theories/StringFacts.v
theories/LayoutFacts.v
theories/FuelFacts.v
theories/P_Parse.v
theories/LimFacts.v
theories/ForwardFacts.v
theories/WordFacts.v
theories/PrecFacts.v
theories/P_Prec.v
theories/LexFacts.v
theories/P_Literal.v
theories/P_ErrLine.v
theories/RangeSpec.v
theories/RangeFacts.v
theories/P_Range.v
theories/LeafSpec.v
theories/LeafFacts.v
theories/P_Keep.v
theories/Repl.v
theories/ReplSpec.v
theories/P_Repl.v
theories/P_Main.v
theories/P_Escape.v
theories/Fs.v
theories/FsHost.v
theories/FsSpec.v
theories/FsFacts.v
theories/Utf8Facts.v
theories/FilesFacts.v
theories/P_Fs.v
theories/P_Files.v
theories/RoundSpec.v
theories/RoundLex.v
theories/RoundParse.v
theories/RoundFacts.v
theories/P_Round.v
theories/RandSpec.v
theories/RandFacts.v
theories/P_Rand.v
theories/LinesSpec.v
theories/P_Lines.v
theories/SysSpec.v
theories/P_Sys.v
theories/TextSpec.v
theories/TrimFacts.v
theories/WidgetSpec.v
theories/P_Widget.v
theories/DirSpec.v
theories/P_Dir.v
theories/TermSpec.v
theories/P_Term.v
theories/DataSpec.v
theories/P_Data.v
theories/Editor.v
theories/EditorSpec.v
theories/P_Editor.v
theories/StartSpec.v
theories/P_Start.v
theories/StrSpec.v
theories/P_Str.v
theories/CaseSpec.v
theories/P_Case.v
theories/PrintSpec.v
theories/P_Print.v
theories/FloatSpec.v
theories/FloatFacts.v
theories/NumSpec.v
theories/P_Num.v
theories/FloatOpSpec.v
theories/P_Float.v
theories/P_Staged.v
theories/P_Once.v
theories/P_Curry.v
theories/FloatFmt.v
theories/P_FloatFmt.v
theories/ErrPosFacts.v
theories/P_ErrShow.v
theories/CrashSpec.v
theories/CrashFacts.v
theories/P_Crash.v
theories/P_Cond.v
theories/P_Names.v
theories/P_Class.v
theories/TidySpec.v
theories/TidyFacts.v
theories/P_Tidy.v
theories/SqrtSpec.v
theories/SqrtFacts.v
theories/P_Elem.v
theories/ModeSpec.v
theories/P_Mode.v
theories/Prelude.v
theories/PreludeFacts.v
theories/RunFacts.v
theories/CalendarSpec.v
theories/TruncFacts.v
theories/GregorianFacts.v
theories/CalendarDefs.v
theories/CalendarFacts.v
theories/CalendarRun.v
theories/PageSpec.v
theories/CalendarPage.v
theories/P_Calendar.v
theories/Table.v
theories/TableSpec.v
theories/TableFacts.v
theories/P_Table.v
theories/PromptSpec.v
theories/P_Prompt.v
theories/HelperSpec.v
theories/P_Helpers.v
theories/GlobSpec.v
theories/P_Glob.v
theories/ReportSpec.v
theories/P_Report.v
theories/RedirectSpec.v
theories/P_Redirect.v
theories/P_Extreme.v
theories/BannerSpec.v
theories/P_Banner.v
theories/WeatherSpec.v
theories/P_Weather.v
theories/DashSpec.v
theories/P_Dash.v
theories/P_DashDay.v
theories/Chess.v
theories/ChessSpec.v
theories/P_Chess.v
theories/ShrewSpec.v
theories/P_Shrew.v
theories/HelloSpec.v
theories/P_Hello.v
theories/P_Hello2.v
theories/ApiSpec.v
theories/P_Api.v
