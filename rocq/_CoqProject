-Q theories Verif
theories/Base.v
theories/CppString.v
theories/Num.v
theories/Token.v
theories/Tokenizer.v
theories/Parser.v
theories/SpecLex.v
theories/TokProofs.v
theories/ClassifyProofs.v
theories/LexProofs.v
theories/PropLex.v
theories/SpecParse.v
theories/ParseProofs.v
theories/PropParse.v
theories/Value.v
theories/State.v
theories/Show.v
theories/ScopeOps.v
theories/Builtins.v
theories/Table.v
theories/Eval.v
theories/LispTop.v
theories/Debugger.v
theories/Conformance.v
theories/ConformanceMain.v
theories/RelProofs.v
theories/FuelProofs.v
theories/FrameProofs.v
theories/Wf.v
theories/WfRead.v
theories/WfProofs.v
theories/SpecRun.v
theories/RunProofs.v
theories/SpecVal.v
theories/SpecText.v
theories/TextProofs.v
theories/BuiltinProofs.v
theories/StrProofs.v
theories/PropText.v
theories/ErrProofs.v
theories/PropRun.v
theories/SpecNum.v
theories/NumProofs.v
theories/PropNum.v
theories/SpecList.v
theories/ListProofs.v
theories/PropList.v
theories/SpecDict.v
theories/DictProofs.v
theories/PropDict.v
theories/SpecForm.v
theories/FormProofs.v
theories/ClosProofs.v
theories/PropForm.v
theories/SpecCalc.v
theories/CalcProofs.v
theories/PropCalc.v
theories/SpecMacro.v
theories/MacroProofs.v
theories/QuoteProofs.v
theories/PropMacro.v
theories/SpecRead.v
theories/ReadProofs.v
theories/PropRead.v
theories/SpecDebug.v
theories/DebugProofs.v
theories/PromptProofs.v
theories/QuietProofs.v
theories/VisitProofs.v
theories/PropDebug.v
theories/Cli.v
theories/SpecCli.v
theories/CliProofs.v
theories/PropCli.v
theories/SpecIo.v
theories/IoProofs.v
theories/SpecFloats.v
theories/FloatProofs.v
theories/RealProofs.v
theories/PropIo.v
theories/PropFloat.v
theories/SpecLang.v
theories/SpecClos.v
theories/SpecFn.v
theories/SpecNever.v
theories/SpecLib.v
theories/LangProofs.v
theories/FnProofs.v
theories/NeverProofs.v
theories/DefnProofs.v
theories/ProgProofs.v
theories/SampleProofs.v
theories/LibProofs.v
theories/PropLang.v
theories/PropLib.v
theories/SpecMix.v
theories/SpecMath.v
theories/MixProofs.v
theories/SmallProofs.v
theories/MathProofs.v
theories/PropMix.v
theories/SpecCall.v
theories/CallProofs.v
theories/PropCall.v
theories/SpecShow.v
theories/ShowProofs.v
theories/SpecPlace.v
theories/PlaceProofs.v
theories/HereProofs.v
theories/OutProofs.v
theories/PropShow.v
theories/SpecMod.v
theories/ModProofs.v
theories/PropMod.v
theories/SpecExpand.v
theories/ExpandProofs.v
theories/PropExpand.v
theories/SpecReach.v
theories/SpecLoop.v
theories/ReachProofs.v
theories/LoopProofs.v
theories/EachProofs.v
theories/PropReach.v
theories/PropLoop.v
theories/SpecDoc.v
theories/DocProofs.v
theories/PropDoc.v
theories/SpecCmd.v
theories/CmdProofs.v
theories/PropCmd.v
theories/PropFn.v
theories/PropNever.v
theories/PropPlace.v
theories/PropHere.v
theories/PropOut.v
