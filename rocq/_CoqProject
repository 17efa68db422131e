-Q theories Verif
theories/ArithFacts.v
theories/Axes.v
theories/AxesFacts.v
theories/BuildFacts.v
theories/Case.v
theories/CaseFacts.v
theories/CaseTable.v
theories/Chars.v
theories/DocEdit.v
theories/DocFacts.v
theories/Dom.v
theories/EditFacts.v
theories/EntityFacts.v
theories/EnvFacts.v
theories/ErrFacts.v
theories/Eval.v
theories/EvalFacts.v
theories/FloatArith.v
theories/FloatFacts.v
theories/FloatNear.v
theories/FloatPrint.v
theories/FloatRound.v
theories/FloatShort.v
theories/FloatText.v
theories/Func.v
theories/FuncFacts.v
theories/FuncTable.v
theories/GrammarFacts.v
theories/HeapFacts.v
theories/IntFacts.v
theories/IsoEval.v
theories/IsoFacts.v
theories/IsoItem.v
theories/IsoWalk.v
theories/Item.v
theories/ItemFacts.v
theories/LawFacts.v
theories/LexFacts.v
theories/LexPrint.v
theories/Lexer.v
theories/LibNum.v
theories/Num.v
theories/OrderFacts.v
theories/Own.v
theories/OwnFacts.v
theories/Parser.v
theories/ParserFacts.v
theories/ParserMono.v
theories/ParserSfx.v
theories/PathFacts.v
theories/PrecFacts.v
theories/PrettyFacts.v
theories/PropApi.v
theories/PropApply.v
theories/PropArgs.v
theories/PropArrow.v
theories/PropAxes.v
theories/PropCase.v
theories/PropDbl.v
theories/PropDistinct.v
theories/PropDom.v
theories/PropEdit.v
theories/PropErr.v
theories/PropEval.v
theories/PropEval2.v
theories/PropEval3.v
theories/PropExact.v
theories/PropFrame.v
theories/PropFunc.v
theories/PropFunc2.v
theories/PropFunc3.v
theories/PropGrammar.v
theories/PropInst.v
theories/PropInt.v
theories/PropIso.v
theories/PropItem.v
theories/PropLex.v
theories/PropNames.v
theories/PropNames2.v
theories/PropNum.v
theories/PropOper.v
theories/PropOwn.v
theories/PropOwn2.v
theories/PropParse.v
theories/PropPath.v
theories/PropPrint.v
theories/PropRead.v
theories/PropRewrite.v
theories/PropRound.v
theories/PropSafe.v
theories/PropSame.v
theories/PropScan.v
theories/PropSem.v
theories/PropSem2.v
theories/PropShow.v
theories/PropString.v
theories/PropSub.v
theories/PropTags.v
theories/PropText.v
theories/PropTypes.v
theories/PropWords.v
theories/PropXml.v
theories/ReachFacts.v
theories/ReadFacts.v
theories/RewriteFacts.v
theories/SafeEval.v
theories/SafeFacts.v
theories/SameFacts.v
theories/Sax.v
theories/SaxFacts.v
theories/ScanFacts.v
theories/SemFacts.v
theories/SemIn.v
theories/SemItem.v
theories/SemKind.v
theories/SemLib.v
theories/SemMain.v
theories/SemMore.v
theories/SemNode.v
theories/SemOper.v
theories/SessionFacts.v
theories/SpecApi.v
theories/SpecArgs.v
theories/SpecArith.v
theories/SpecAxes.v
theories/SpecCase.v
theories/SpecDbl.v
theories/SpecEdit.v
theories/SpecErr.v
theories/SpecEval.v
theories/SpecExpr.v
theories/SpecFrame.v
theories/SpecFunc.v
theories/SpecGrammar.v
theories/SpecInst.v
theories/SpecInt.v
theories/SpecIso.v
theories/SpecItem.v
theories/SpecLex.v
theories/SpecLib.v
theories/SpecNames.v
theories/SpecNs.v
theories/SpecNum.v
theories/SpecOper.v
theories/SpecOwn.v
theories/SpecPath.v
theories/SpecPretty.v
theories/SpecPrint.v
theories/SpecRead.v
theories/SpecRewrite.v
theories/SpecSafe.v
theories/SpecSame.v
theories/SpecScan.v
theories/SpecSem.v
theories/SpecShow.v
theories/SpecSub.v
theories/SpecText.v
theories/SpecTokens.v
theories/SpecTree.v
theories/SpecTypes.v
theories/Str.v
theories/StrFacts.v
theories/TermFacts.v
theories/TypeFacts.v
theories/Types.v
