-Q theories Verif
theories/Model/Common.v
theories/Model/Instr.v
theories/Model/Bytecode.v
theories/Model/Cursor.v
theories/Model/Assembler.v
theories/Model/Source.v
theories/Model/Stack.v
theories/Model/Ast.v
theories/Model/Scope.v
theories/Model/CompilerStack.v
theories/Model/Float.v
theories/Model/Compiler.v
theories/Model/Value.v
theories/Model/Text.v
theories/Model/VM.v
theories/Spec/Encoding.v
theories/Spec/ConstPool.v
theories/Spec/TextPos.v
theories/Spec/StackSpec.v
theories/Spec/ScopeSpec.v
theories/Spec/ScopeRun.v
theories/Spec/CaptureSpec.v
theories/Spec/WellFormed.v
theories/Spec/StaticSpec.v
theories/Spec/StaticTop.v
theories/Spec/PanicSpec.v
theories/Spec/PanicTop.v
theories/Spec/WideSpec.v
theories/Spec/ShapeSpec.v
theories/Proofs/CodecP.v
theories/Proofs/AssemblerP.v
theories/Proofs/PoolP.v
theories/Proofs/PropsC01_C05P.v
theories/Proofs/SourceP.v
theories/Proofs/StackP.v
theories/Proofs/ScopeP.v
theories/Proofs/CaptureP.v
theories/Proofs/ExprInd.v
theories/Proofs/WellFormedP.v
theories/Proofs/WellFormedPrimP.v
theories/Proofs/WellFormedVisitP.v
theories/Proofs/StaticP.v
theories/Proofs/StaticVisitP.v
theories/Proofs/DuplicateP.v
theories/Proofs/NoDuplicatesP.v
theories/Proofs/NoPanicP.v
theories/Proofs/NoPanicVisitP.v
theories/Proofs/WideP.v
theories/Proofs/ShapeP.v
theories/Proofs/StaticTopP.v
theories/Proofs/ClassRulesP.v
theories/Proofs/HostSampleP.v
theories/Proofs/TextP.v
theories/Proofs/HostFnP.v
theories/Proofs/FloatP.v
theories/Proofs/MethodP.v
theories/Props/C01_C05.v
theories/Props/C06_C08.v
theories/Props/C11.v
theories/Props/C36_C38.v
theories/Props/C10.v
theories/Props/C09_C15_C44_C46.v
theories/Spec/VmHistory.v
theories/Proofs/VmStepsP.v
theories/Spec/VmSpec.v
theories/Spec/ArithSpec.v
theories/Spec/EqualSpec.v
theories/Spec/ClassSpec.v
theories/Proofs/VmPrimP.v
theories/Proofs/ArithP.v
theories/Proofs/CompareP.v
theories/Proofs/EqualP.v
theories/Proofs/HeapP.v
theories/Proofs/HeapInvP.v
theories/Proofs/ClassP.v
theories/Proofs/GlobalsP.v
theories/Spec/StoreSpec.v
theories/Proofs/StoreP.v
theories/Proofs/SampleP.v
theories/Props/C17_C19.v
theories/Model/FileLoader.v
theories/Model/Host.v
theories/Proofs/HostP.v
theories/Proofs/HostClassP.v
theories/Spec/NamesSpec.v
theories/Spec/DefinitionSpec.v
theories/Proofs/NamesP.v
theories/Proofs/DefinitionP.v
theories/Proofs/ChangeP.v
theories/Proofs/DefinitionSampleP.v
theories/Props/C22_C24.v
theories/Props/C25_C28.v
theories/Props/C29_C30.v
theories/Spec/CallSpec.v
theories/Proofs/CallP.v
theories/Proofs/RunP.v
theories/Spec/SharingSpec.v
theories/Proofs/SharingP.v
theories/Proofs/CallExamplesP.v
theories/Props/C12_C43.v
theories/Props/C20_C21.v
theories/Props/C41.v
theories/Model/Lexer.v
theories/Model/Parser.v
theories/Model/Script.v
theories/Model/Cli.v
theories/Model/Prelude.v
theories/Tests/ScriptTests.v
theories/Spec/LexSpec.v
theories/Proofs/LexerP.v
theories/Spec/ParseSpec.v
theories/Spec/CliSpec.v
theories/Proofs/ParserP.v
theories/Proofs/ParserFuelP.v
theories/Proofs/ParserDepthP.v
theories/Proofs/ParserCleanP.v
theories/Proofs/SourceTextP.v
theories/Spec/GrammarSpec.v
theories/Proofs/RoundTripP.v
theories/Spec/PrintSpec.v
theories/Proofs/PrintP.v
theories/Proofs/ProgramSampleP.v
theories/Props/C31_C32.v
theories/Props/C33_C35.v
theories/Props/C34_C47_C48.v
theories/Spec/EvalSpec.v
theories/Spec/SupportSpec.v
theories/Spec/MeaningSpec.v
theories/Spec/FlowSpec.v
theories/Spec/ArraySpec.v
theories/Spec/HostSpec.v
theories/Proofs/ReachP.v
theories/Proofs/CodeP.v
theories/Proofs/MemP.v
theories/Proofs/StepP.v
theories/Proofs/ScopeSimP.v
theories/Proofs/CallSimP.v
theories/Proofs/NativeSimP.v
theories/Proofs/SimP.v
theories/Proofs/SimExprP.v
theories/Proofs/SimBlockP.v
theories/Proofs/SimLoopP.v
theories/Proofs/SimFnP.v
theories/Proofs/SimModP.v
theories/Proofs/SimTopP.v
theories/Proofs/EmitP.v
theories/Proofs/VisitMonoP.v
theories/Proofs/FitsP.v
theories/Proofs/JumpsP.v
theories/Proofs/ScopesP.v
theories/Proofs/DeclsP.v
theories/Proofs/FnCodeP.v
theories/Proofs/BodyCodeP.v
theories/Proofs/VisitCodeP.v
theories/Proofs/VisitLoopP.v
theories/Proofs/VisitAllP.v
theories/Proofs/NumberP.v
theories/Proofs/CompileP.v
theories/Proofs/MonoP.v
theories/Proofs/FlowP.v
theories/Proofs/FlowSampleP.v
theories/Spec/ConstantSpec.v
theories/Proofs/ImmutableP.v
theories/Proofs/ConstantP.v
theories/Proofs/ModuleSampleP.v
theories/Proofs/ConstantSampleP.v
theories/Props/C13_C14_C16.v
theories/Props/C39_C40.v
theories/Props/C09_C23.v
theories/Proofs/ArrayMethodP.v
theories/Proofs/ArraySampleP.v
theories/Props/C42.v
theories/Props/C49_C51.v
theories/Props/C52_C54.v
theories/Props/C55.v
theories/Props/C56.v
theories/Props/C57.v
theories/Props/C58.v
theories/Spec/RangeSpec.v
theories/Proofs/RangeP.v
theories/Proofs/RangeSampleP.v
theories/Proofs/RangeOpP.v
theories/Proofs/CliP.v
theories/Proofs/CliRunP.v
theories/Props/C59.v
theories/Model/Messages.v
theories/Model/Report.v
theories/Spec/ReportSpec.v
theories/Spec/MessageSpec.v
theories/Proofs/ReportP.v
theories/Proofs/MessagesP.v
theories/Props/C60.v
theories/Props/C61.v
theories/Spec/ResultSpec.v
theories/Proofs/ResultP.v
theories/Proofs/ResultSampleP.v
theories/Props/C62.v
theories/Props/C63.v
