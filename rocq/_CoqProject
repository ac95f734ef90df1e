-Q theories Verif
theories/Base.v
theories/Num.v
theories/Term.v
theories/Unify.v
theories/TrailFacts.v
theories/FuelFacts.v
theories/ChainFacts.v
theories/TermSpec.v
theories/UnifySem.v
theories/UnifyTerm.v
theories/TrailSpec.v
theories/TrailHist.v
theories/UnifyCor.v
theories/ExPy.v
theories/WildSpec.v
theories/UnifyWild.v
theories/PatMatch.v
theories/InstSpec.v
theories/PyEq.v
theories/SetFacts.v
theories/FreezeFacts.v
theories/BackUnify.v
theories/GroundFacts.v
theories/AnnotSpec.v
theories/UnifyPres.v
theories/AnnotFacts.v
theories/AnnotFlat.v
theories/CmpSpec.v
theories/CmpFacts.v
theories/RefTerm.v
theories/Str.v
theories/World.v
theories/Engine.v
theories/Step.v
theories/Ast.v
theories/Names.v
theories/Build.v
theories/UnifyTotal.v
theories/PropsUnify.v
theories/PropsTerm.v
theories/NamesSpec.v
theories/NamesFacts.v
theories/BuildSpec.v
theories/BuildFacts.v
theories/PropsNames.v
theories/FuelEngine.v
theories/QuerySpec.v
theories/QueryBase.v
theories/QueryFacts.v
theories/QueryComplete.v
theories/QueryCor.v
theories/EnumSpec.v
theories/EnumFacts.v
theories/PropsQuery.v
theories/Effects.v
theories/NvFacts.v
theories/EffFacts.v
theories/Reach.v
theories/ReachFacts.v
theories/BelFacts.v
theories/PatTotal.v
theories/UannTotal.v
theories/GroundPat.v
theories/GroundUann.v
theories/ClosedScope.v
theories/BelSpec.v
theories/BelAdd.v
theories/BelRem.v
theories/BelCor.v
theories/PropsBelief.v
theories/SolsMono.v
theories/PlanSpec.v
theories/PlanFacts.v
theories/EventFacts.v
theories/StepSpec.v
theories/StepFacts.v
theories/EventCor.v
theories/NestFacts.v
theories/StepCor.v
theories/ExPlan.v
theories/OwnFacts.v
theories/LoadSpec.v
theories/LoadFacts.v
theories/EnvFacts.v
theories/ExLoad.v
theories/LoadCor.v
theories/TwinSpec.v
theories/LoadTwin.v
theories/PropsBuild.v
theories/PropsPlan.v
theories/PropsStep.v
theories/MildSpec.v
theories/MildFacts.v
theories/MsgSpec.v
theories/MsgFacts.v
theories/MsgCor.v
theories/HowSpec.v
theories/HowFacts.v
theories/ExMsg.v
theories/PropsMsg.v
theories/SchedSpec.v
theories/SchedFacts.v
theories/ExSched.v
theories/PropsSched.v
theories/FlowSpec.v
theories/FlowFacts.v
theories/FlowReach.v
theories/FlowCor.v
theories/ExFlow.v
theories/PropsFlow.v
theories/LogicSpec.v
theories/LogicFacts.v
theories/LogicCor.v
theories/PropsLogic.v
theories/Quote.v
theories/QuoteSpec.v
theories/QuoteFacts.v
theories/Lex.v
theories/LexSpec.v
theories/RegexFacts.v
theories/LexFacts.v
theories/LexCor.v
theories/LexTok.v
theories/PropsText.v
theories/Parse.v
theories/RoundSpec.v
theories/RoundLex.v
theories/RoundTok.v
theories/RoundText.v
theories/RoundParse.v
theories/ParseInv.v
theories/ParseTotal.v
theories/NumRead.v
theories/RoundCor.v
theories/ExParse.v
theories/PropsParse.v
theories/Fold.v
theories/Program.v
theories/Counts.v
theories/Eats.v
theories/ProgSpec.v
theories/ProgTotal.v
theories/ProgCor.v
theories/ExProg.v
theories/PropsProg.v
theories/FoldSpec.v
theories/FoldSem.v
theories/FoldCor.v
theories/FoldQuery.v
theories/FoldCond.v
theories/PropsFold.v
theories/ActSpec.v
theories/ActCor.v
theories/PropsAct.v
theories/ArithCor.v
theories/PropsArith.v
theories/Front.v
theories/TellSpec.v
theories/TellFacts.v
theories/AskFacts.v
theories/SentFacts.v
theories/HowCor.v
theories/ExHow.v
theories/PropsHow.v
theories/GramSpec.v
theories/GramTok.v
theories/GramSound.v
theories/GramComp.v
theories/GramCor.v
theories/ExGram.v
theories/PropsGram.v
theories/Closed.v
theories/SrcSpec.v
theories/SrcQuiet.v
theories/SrcVal.v
theories/SrcFacts.v
theories/SrcComp.v
theories/PropsSrc.v
theories/ForceSpec.v
theories/ForceCor.v
theories/ExForce.v
theories/PropsForce.v
theories/CallSpec.v
theories/CallCor.v
theories/ExCall.v
theories/PropsCall.v
theories/ShowSpec.v
theories/ShowNum.v
theories/ShowCor.v
theories/ExShow.v
theories/ShowRepr.v
theories/PropsShow.v
theories/FloatSpec.v
theories/FloatRound.v
theories/FloatOps.v
theories/FloatCor.v
theories/FloatEval.v
theories/PropsFloat.v
theories/FloatDiv.v
theories/OrderSpec.v
theories/OrderCor.v
theories/WriteSpec.v
theories/WriteCor.v
theories/FrameSpec.v
theories/FrameFacts.v
theories/FrameCor.v
theories/PropsFrame.v
theories/ResumeVar.v
theories/Optimize.v
theories/OptSpec.v
theories/OptFacts.v
theories/PropsOpt.v
theories/Repl.v
theories/Steady.v
theories/ReplSpec.v
theories/ReplFacts.v
theories/PropsRepl.v
theories/FindFacts.v
theories/KeepSpec.v
theories/KeepFacts.v
theories/KeepBuild.v
theories/KeepCor.v
theories/PropsKeep.v
theories/PathSpec.v
theories/PathFacts.v
theories/PropsPath.v
theories/RepoMain.v
theories/RepoTests.v
theories/ScopeSpec.v
theories/ScopeFacts.v
theories/PropsScope.v
theories/StemSpec.v
theories/StemFacts.v
theories/WaitSpec.v
theories/WaitFacts.v
theories/WaitCor.v
theories/PropsWait.v
theories/WarnSpec.v
theories/WarnFacts.v
theories/WarnComp.v
theories/WarnBuild.v
theories/PropsWarn.v
theories/ReplExec.v
theories/SessSpec.v
theories/SessFacts.v
theories/SessInv.v
theories/PropsSess.v
theories/AgentSpec.v
theories/AgentFold.v
theories/AgentFacts.v
theories/AgentFormed.v
theories/AgentSign.v
theories/SignPlan.v
theories/SignForm.v
theories/AgentUnsign.v
theories/AgentBuild.v
theories/SignRead.v
theories/ExAgent.v
theories/ExSign.v
theories/PropsAgent.v
