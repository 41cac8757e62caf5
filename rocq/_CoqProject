-Q theories Verif
theories/Prelude.v
theories/PreludeFacts.v
theories/Utf8.v
theories/Utf8Facts.v
theories/EncodingModel.v
theories/EncodingSpec.v
theories/EncodingProofs.v
theories/EncodingProps.v
theories/CharConvModel.v
theories/CharConvSpec.v
theories/CharConvProofs.v
theories/CharConvProps.v
theories/ChunkModel.v
theories/ChunkSpec.v
theories/ChunkProofs.v
theories/ChunkFacts.v
theories/ChunkLemmas.v
theories/ChunkMain.v
theories/ChunkProps.v
theories/InstrModel.v
theories/HeaderModel.v
theories/ComponentModel.v
theories/AsmModel.v
theories/AsmSpec.v
theories/AsmFacts.v
theories/AsmProofs.v
theories/AsmMain.v
theories/AsmRound.v
theories/AsmLemmas.v
theories/AsmProps.v
theories/DecompModel.v
theories/DecompStream.v
theories/DecompSpec.v
theories/DecompImage.v
theories/DecompChain.v
theories/DecompCalcSpec.v
theories/DecompCalc.v
theories/DecompScriptSpec.v
theories/DecompScript.v
theories/DecompRecoverSpec.v
theories/DecompProps.v
theories/DecompRecover.v
theories/DecompRecover2.v
theories/DecompRecover3.v
theories/DecompRecover4.v
theories/DecompNever.v
theories/DecompRecoverProps.v
theories/RelModel.v
theories/RelSpec.v
theories/RelProofs.v
theories/RelSearch.v
theories/RelProps.v
theories/StrOrder.v
theories/DbModel.v
theories/StrOrderFacts.v
theories/DbGenSpec.v
theories/DbSpec.v
theories/DbFacts.v
theories/DbGen.v
theories/DbProofs.v
theories/DbInv.v
theories/DbLookup.v
theories/DbProps.v
theories/CalcModel.v
theories/CalcSpec.v
theories/CalcFacts.v
theories/CalcParse.v
theories/CalcEnds.v
theories/CalcRound.v
theories/CalcDemo.v
theories/CalcProps.v
theories/EvalModel.v
theories/LexSpec.v
theories/LexProofs.v
theories/EvalSpec.v
theories/EvalProofs.v
theories/EvalFuel.v
theories/EvalCycle.v
theories/EvalProps.v
theories/VmModel.v
theories/VmSpec.v
theories/VmParts.v
theories/VmSteps.v
theories/VmRun.v
theories/VmBack.v
theories/VmTestSpec.v
theories/VmFlat.v
theories/VmProps.v
theories/BurnModel.v
theories/BurnSpec.v
theories/BurnLex.v
theories/BurnParse.v
theories/BurnText.v
theories/BurnProps.v
theories/SchemaModel.v
theories/SchemaSpec.v
theories/SchemaLex.v
theories/SchemaParse.v
theories/SchemaText.v
theories/SchemaFuel.v
theories/SchemaProps.v
theories/MainModel.v
theories/MainSpec.v
theories/MainProofs.v
theories/DecompMaps.v
theories/MainProps.v
theories/DbReadSpec.v
theories/DbRead.v
theories/DbReadProps.v
theories/TreeSpec.v
theories/Tree.v
theories/TreeProps.v
theories/TokensSpec.v
theories/Tokens.v
theories/TokensProps.v
theories/InlineSpec.v
theories/Inline.v
theories/InlineProps.v
theories/ScriptsSpec.v
theories/Scripts.v
theories/ScriptsProps.v
theories/VmTextSpec.v
theories/VmText.v
theories/VmTextProps.v
theories/HistorySpec.v
theories/History.v
theories/History2.v
theories/History3.v
theories/HistoryProps.v
theories/StepsSpec.v
theories/Steps.v
theories/Steps2.v
theories/Steps3.v
theories/StepsProps.v
theories/AbortSpec.v
theories/Abort.v
theories/Abort2.v
theories/Abort3.v
theories/Abort4.v
theories/AbortProps.v
theories/PhraseSpec.v
theories/Phrase.v
theories/PhraseProps.v
theories/RunsSpec.v
theories/Runs.v
theories/RunsProps.v
theories/SessionSpec.v
theories/Session.v
theories/SessionProps.v
theories/JsonModel.v
theories/JsonSpec.v
theories/Json.v
theories/JsonProps.v
theories/FilesModel.v
theories/FilesSpec.v
theories/Files.v
theories/FilesProps.v
theories/PrintModel.v
theories/PrintSpec.v
theories/Print.v
theories/PrintProps.v
theories/PieceSpec.v
theories/Pieces.v
theories/Unicode.v
theories/PieceProps.v
theories/TalkModel.v
theories/TalkSpec.v
theories/Talk.v
theories/TalkRun.v
theories/TalkProps.v
theories/HeadSpec.v
theories/HeadProps.v
theories/GripeModel.v
theories/GripeSpec.v
theories/Gripe.v
theories/GripeProps.v
theories/SourceModel.v
theories/SourceSpec.v
theories/Source.v
theories/SourceProps.v
theories/TraceModel.v
theories/TraceSpec.v
theories/TraceProps.v
theories/ReportModel.v
theories/ReportSpec.v
theories/Report.v
theories/Report2.v
theories/ReportProps.v
theories/WholeModel.v
theories/WholeSpec.v
theories/Whole.v
theories/WholeProps.v
theories/TraceRoom.v
theories/HaltSpec.v
theories/Halt.v
theories/HaltSource.v
theories/Speech.v
theories/StoreModel.v
theories/StoreSpec.v
theories/Store.v
theories/StoreProps.v
theories/VecModel.v
theories/VecSpec.v
theories/Vec.v
theories/VecProps.v
theories/WordsModel.v
theories/WordsSpec.v
theories/Words.v
theories/WordsProps.v
theories/HeardSpec.v
theories/Heard.v
theories/HeardProps.v
theories/MutterModel.v
theories/MutterSpec.v
theories/Mutter.v
theories/MutterProps.v
theories/PastSpec.v
theories/Past.v
theories/PastProps.v
theories/WorldSpec.v
theories/World.v
theories/WorldProps.v
theories/TestWorld.v
theories/TestWorldProps.v
theories/RelatedWorldProps.v
theories/FieldSpec.v
theories/FieldProps.v
theories/LawSpec.v
theories/Law.v
theories/LawProps.v
theories/Unique.v
theories/ClockSpec.v
theories/Clock.v
theories/ClockProps.v
theories/ClockTalk.v
