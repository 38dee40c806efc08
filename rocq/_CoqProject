-Q theories Verif
theories/Base.v
theories/VectorModel.v
theories/VectorSpec.v
theories/VectorProofs.v
theories/VectorProps.v
theories/ListModel.v
theories/ListSpec.v
theories/ListProofs.v
theories/ListProps.v
theories/MapModel.v
theories/MapSpec.v
theories/MapProofs.v
theories/MapProps.v
theories/StringModel.v
theories/StringSpec.v
theories/StringProofs.v
theories/StringProps.v
theories/IntegerModel.v
theories/IntegerSpec.v
theories/IntegerProofs.v
theories/IntegerProps.v
theories/DateTimeModel.v
theories/DateTimeSpec.v
theories/DateTimeCal.v
theories/DateTimeProofs.v
theories/DateTimeProps.v
theories/FloatModel.v
theories/FloatProofs.v
theories/FloatBits.v
theories/FloatInt.v
theories/ValueModel.v
theories/ValueSpec.v
theories/ValueProofs.v
theories/ValueProps.v
theories/ExprModel.v
theories/VmModel.v
theories/ExprSpec.v
theories/ExprTree.v
theories/ExprShape.v
theories/ExprProofs.v
theories/FoldModel.v
theories/FoldSpec.v
theories/FoldProofs.v
theories/ExprZs.v
theories/ExprProps.v
theories/StmtModel.v
theories/StmtSpec.v
theories/StmtShape.v
theories/StmtProofs.v
theories/StmtProps.v
theories/CallModel.v
theories/CallSpec.v
theories/CallProps.v
theories/ShareModel.v
theories/ShareSpec.v
theories/ShareProofs.v
theories/ShareProps.v
theories/LexModel.v
theories/LexSpec.v
theories/LexProofs.v
theories/LexOps.v
theories/LexTok.v
theories/LexNum.v
theories/LexProps.v
theories/ArrayModel.v
theories/ArraySpec.v
theories/ArrayProofs.v
theories/ArrayProps.v
theories/ObjectModel.v
theories/ObjectSpec.v
theories/ObjectProofs.v
theories/ObjectProps.v
theories/TypeModel.v
theories/TypeSpec.v
theories/TypeProofs.v
theories/TypeProps.v
theories/ScopeModel.v
theories/ScopeSpec.v
theories/ScopeProofs.v
theories/ScopeStepProofs.v
theories/ScopeSessionProofs.v
theories/ScopeFactProofs.v
theories/ScopeProps.v
theories/ScopeLiveProofs.v
theories/ScopeLiveProps.v
theories/IterModel.v
theories/IterSpec.v
theories/IterProofs.v
theories/IterProps.v
theories/JsonModel.v
theories/JsonSpec.v
theories/JsonProofs.v
theories/JsonGram.v
theories/JsonNum.v
theories/JsonRound.v
theories/JsonProps.v
theories/FormatModel.v
theories/FormatSpec.v
theories/FormatProofs.v
theories/FormatProps.v
theories/StackModel.v
theories/StackFrag.v
theories/StackExpr.v
theories/StackStmt.v
theories/StackProps.v
theories/PassModel.v
theories/PassSpec.v
theories/PassProofs.v
theories/PassProps.v
theories/NativeModel.v
theories/NativeSpec.v
theories/NativeProofs.v
theories/NativeProps.v
theories/AccessModel.v
theories/AccessSpec.v
theories/AccessProofs.v
theories/AccessProps.v
theories/MetaModel.v
theories/MetaSpec.v
theories/MetaProofs.v
theories/MetaProps.v
theories/SlotModel.v
theories/SlotSpec.v
theories/SlotProofs.v
theories/SlotRun.v
theories/SlotEval.v
theories/SlotClear.v
theories/SlotProps.v
theories/EvalModel.v
theories/EvalSpec.v
theories/EvalProofs.v
theories/EvalCode.v
theories/EvalRun.v
theories/EvalProps.v
theories/ParseModel.v
theories/ParseSpec.v
theories/ParseLex.v
theories/ParseProofs.v
theories/ParseMain.v
theories/ParseSound.v
theories/ParseTotal.v
theories/ParseRefute.v
theories/ParseProps.v
theories/TextModel.v
theories/TextSpec.v
theories/TextProofs.v
theories/TextProps.v
theories/LitModel.v
theories/LitSpec.v
theories/LitProofs.v
theories/LitSound.v
theories/LitProps.v
theories/InModel.v
theories/InProps.v
theories/PathModel.v
theories/PathProps.v
theories/MathModel.v
theories/MathProofs.v
theories/MathProps.v
theories/ImportModel.v
theories/ImportProps.v
theories/CopyModel.v
theories/CopyProps.v
theories/FileModel.v
theories/FileProps.v
