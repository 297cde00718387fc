-Q theories Verif

theories/Base.v
theories/Utf8.v
theories/Utf8Spec.v
theories/UnicodeRange.v
theories/Lexer.v
theories/LexSpec.v
theories/Utf8Proofs.v
theories/UrangeProofs.v
theories/LexerWp.v
theories/LexerTac.v
theories/LexerTotal.v
theories/LexerNum.v
theories/LexerNum2.v
theories/LexerDispatch.v
theories/LexerMain.v
theories/LineProofs.v
theories/Utf8Stream.v
theories/LexFacts.v
theories/Props_Lexer.v
theories/View.v
theories/OutText.v
theories/TextSpec.v
theories/RoundString.v
theories/RoundUrl.v
theories/RoundIdent.v
theories/RoundInt.v
theories/RoundRange.v
theories/Ops.v
theories/Props_Round.v
theories/EscapeSpec.v
theories/RoundEscape.v
theories/Props_Escape.v
theories/DecText.v
theories/NthChild.v
theories/NthSpec.v
theories/NthProofs.v
theories/Props_Nth.v
theories/ErrorLog.v
theories/ErrorSpec.v
theories/Props_Error.v
theories/DecFmt.v
theories/DecSpec.v
theories/DecProofs.v
theories/FloatFacts.v
theories/FloatMath.v
theories/Props_Dec.v
theories/NodeHeap.v
theories/NodeSpec.v
theories/NodeProofs.v
theories/Props_Node.v
theories/Parser.v
theories/ParseSpec.v
theories/ParserProofs.v
theories/ParserTop.v
theories/ParserFuel.v
theories/ArgSpec.v
theories/ArgProofs.v
theories/Props_Parse.v
theories/ColorSpec.v
theories/Color.v
theories/ColorProofs.v
theories/F32Facts.v
theories/ColorFloat.v
theories/RoundHash.v
theories/Props_Color.v
theories/FloatBits.v
theories/Dim.v
theories/DimSpec.v
theories/DimProofs.v
theories/Expr.v
theories/ExprSpec.v
theories/ExprRun.v
theories/Hsl.v
theories/Functions.v
theories/FunctionSpec.v
theories/FunctionRun.v
theories/Props_Functions.v
theories/Props_Math.v
theories/Props_Shade.v
theories/Props_Sqrt.v
theories/PiFacts.v
theories/Props_Trig.v
theories/Props_Exists.v
theories/Props_Convert.v
theories/CmpSpec.v
theories/Props_Expr.v
theories/Props_Mul.v
theories/Props_Str.v
theories/Props_Cmp.v
theories/Props_Index.v
theories/Compiler.v
theories/CompRun.v
theories/ScopeSpec.v
theories/ScopeProofs.v
theories/Props_Scope.v
theories/IfSpec.v
theories/IfProofs.v
theories/Props_If.v
theories/ExprFrame.v
theories/PrecSpec.v
theories/PrecStream.v
theories/PrecValue.v
theories/PrecParse.v
theories/PrecMain.v
theories/PrecTrees.v
theories/PrecMeaning.v
theories/Props_Prec.v
theories/Props_Files.v
theories/CommentSpec.v
theories/Props_Comment.v
theories/Trees.v
theories/Props_Prune.v
theories/DeclSpec.v
theories/DeclProofs.v
theories/Props_Decl.v
theories/Props_Selectors.v
theories/Assembler.v
theories/ModeSpec.v
theories/Props_Modes.v
theories/PreserveSpec.v
theories/Props_Preserve.v
theories/Selector.v
theories/SelectorSpec.v
theories/SelectorProofs.v
theories/Props_Selector.v
theories/NodeText.v
theories/Compile.v
theories/Pipeline.v
theories/ListSpec.v
theories/ListProofs.v
theories/SplitSpec.v
theories/SplitProofs.v
theories/ValuesSpec.v
theories/ValuesProofs.v
theories/DeclCompile.v
theories/Props_Values.v
theories/AtSpec.v
theories/Props_At.v
theories/FramesSpec.v
theories/FramesProofs.v
theories/Props_Frames.v
theories/WholeSpec.v
theories/LaySpec.v
theories/VarSpec.v
theories/StyleSpec.v
theories/WholeShape.v
theories/WholeLex.v
theories/WholePieces.v
theories/WholeParse.v
theories/WholeTree.v
theories/WholeDecl.v
theories/WholeSelect.v
theories/WholeRule.v
theories/WholeAfter.v
theories/WholeOut.v
theories/WholeMain.v
theories/Props_Whole.v
theories/WholeVars.v
theories/WholeScript.v
theories/WholeSet.v
theories/WholeRoot.v
theories/WholeEnv.v
theories/WholeVarMain.v
theories/Props_Vars.v
theories/WholeOne.v
theories/Props_Found.v
theories/MessagesParser.v
theories/MessagesExpr.v
theories/MessagesFunctions.v
theories/MessagesCompiler.v
theories/MessagesCompile.v
theories/MessagesLexer.v
theories/MessagesAssembler.v
theories/MessagesPipeline.v
theories/Props_Messages.v
theories/WholeUnset.v
theories/WholeUnsetMain.v
theories/Tool.v
theories/ToolRun.v
theories/Props_Tool.v
theories/Props_ToolNames.v
