-Q theories Verif
theories/Base.v
theories/BaseFacts.v
theories/Utf8.v
theories/Utf8Facts.v
theories/Dec.v
theories/Bson.v
theories/Spec_Bson.v
theories/BsonFacts.v
theories/BsonExtra.v
theories/Prop_Bson.v
theories/Opcode.v
theories/Spec_Opcode.v
theories/OpcodeFacts.v
theories/OpcodeExtra.v
theories/Prop_Opcode.v
theories/Float.v
theories/Value.v
theories/VM.v
theories/Ast.v
theories/CodeGen.v
theories/Compile.v
theories/Types.v
theories/FloatFacts.v
theories/Spec_Value.v
theories/ValueFacts.v
theories/Spec_Heap.v
theories/HeapFacts.v
theories/Prop_Value.v
theories/Prop_Heap.v
theories/Spec_Types.v
theories/TypeFacts.v
theories/Prop_Types.v
theories/Spec_VM.v
theories/VMFacts.v
theories/Spec_Tables.v
theories/TableFacts.v
theories/Prop_Tables.v
theories/Sem.v
theories/SemWf.v
theories/GenFacts.v
theories/GenLocals.v
theories/SimVM.v
theories/Sim.v
theories/SimRel.v
theories/SimFrame.v
theories/SimNode.v
theories/GenFuncs.v
theories/LoadFacts.v
theories/SemProg.v
theories/SimFun.v
theories/SimMod.v
theories/SimProg.v
theories/Spec_Sem.v
theories/SemFacts.v
theories/SimAt.v
theories/SimUse.v
theories/Spec_Code.v
theories/GenRel.v
theories/CodeFacts.v
theories/LineFacts.v
theories/GenTwin.v
theories/Ex_Prog.v
theories/Prop_Code.v
theories/Prop_Sem.v
theories/Spec_Show.v
theories/ShowFacts.v
theories/Prop_Show.v
theories/Lexer.v
theories/Spec_Lex.v
theories/LexFacts.v
theories/LexAll.v
theories/Prop_Lex.v
theories/Syntax.v
theories/Parser.v
theories/ParseFacts.v
theories/ParseTotal.v
theories/Spec_Parse.v
theories/ParseExpr.v
theories/ParseLine.v
theories/Prop_Parse.v
theories/Spec_Program.v
theories/ParseStmt.v
theories/ParseDecl.v
theories/ParseProg.v
theories/Prop_Program.v
theories/Sym.v
theories/Exhaust.v
theories/Check.v
theories/Front.v
theories/Ex_Front.v
theories/Ex_Tests.v
theories/Spec_Match.v
theories/MatchFacts.v
theories/MatchTree.v
theories/MatchLit.v
theories/Prop_Match.v
theories/ExhaustTotal.v
theories/Spec_Typing.v
theories/TypeSound.v
theories/Prop_Typing.v
theories/Spec_Accept.v
theories/AcceptTypes.v
theories/AcceptBase.v
theories/AcceptExpr.v
theories/AcceptFrame.v
theories/AcceptStep.v
theories/AcceptStm.v
theories/AcceptDecl.v
theories/AcceptTop.v
theories/AcceptMod.v
theories/Spec_AcceptProg.v
theories/AcceptProg.v
theories/Prop_Accept.v
theories/Prop_Return.v
theories/Prop_Choice.v
theories/Prop_Front.v
theories/ImportFacts.v
theories/Spec_Import.v
theories/ImportLoad.v
theories/Prop_Import.v
theories/Spec_Generic.v
theories/Prop_Generic.v
theories/Report.v
theories/Prop_Report.v
theories/Spec_Lines.v
theories/ParseLines.v
theories/LineCheck.v
theories/LineLoad.v
theories/Prop_Lines.v
theories/Spec_Format.v
theories/Prop_Format.v
theories/Spec_Gen.v
theories/GenTotal.v
theories/Prop_Gen.v
theories/Spec_Scope.v
theories/ScopeExpr.v
theories/ScopeInv.v
theories/ScopeStm.v
theories/ScopeTop.v
theories/Prop_Scope.v
theories/Spec_Method.v
theories/MethodBase.v
theories/MethodVisit.v
theories/MethodMain.v
theories/MethodLoad.v
theories/Prop_Method.v
theories/Prop_Crash.v
theories/Spec_Plain.v
theories/PlainBase.v
theories/PlainStep.v
theories/PlainVisit.v
theories/PlainTop.v
theories/Prop_Plain.v
theories/Spec_Count.v
theories/CountFacts.v
theories/FuelFacts.v
theories/CalmFacts.v
theories/Prop_Count.v
theories/Spec_Height.v
theories/HeightGen.v
theories/HeightStm.v
theories/HeightTop.v
theories/HeightCode.v
theories/HeightStep.v
theories/HeightRun.v
theories/Prop_Height.v
theories/Spec_Option.v
theories/OptionRun.v
theories/Prop_Option.v
theories/Prop_HeightIguala.v
theories/OperateRun.v
theories/Prop_Operate.v
theories/Prop_Convert.v
theories/Spec_Frame.v
theories/FrameStep.v
theories/FrameRun.v
theories/Prop_Frame.v
theories/Prop_Pieces.v
