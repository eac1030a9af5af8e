-Q theories Verif
theories/Base.v
theories/Utf8Model.v
theories/Utf8Spec.v
theories/Utf8Proofs.v
theories/Utf8Main.v
theories/Utf8Props.v
theories/ParseIntModel.v
theories/ParseIntSpec.v
theories/ParseIntProofs.v
theories/ParseIntProps.v
theories/SortModel.v
theories/SortSpec.v
theories/SortProofs.v
theories/SortProps.v
theories/ReClassModel.v
theories/ReClassSpec.v
theories/ReClassProofs.v
theories/ReClassProps.v
theories/ListZ.v
theories/IndexModel.v
theories/ArrayModel.v
theories/ArraySpec.v
theories/ArrayProofs.v
theories/ArrayProps.v
theories/BufferModel.v
theories/BufferSpec.v
theories/BufferProofs.v
theories/BufferProps.v
theories/StringModel.v
theories/StringSpec.v
theories/StringProofs.v
theories/StringProofs2.v
theories/StringProofs3.v
theories/StringProps.v
theories/StrLibModel.v
theories/StrLibSpec.v
theories/StrLibProofs.v
theories/StrLibProps.v
theories/ObjModel.v
theories/ObjSpec.v
theories/ObjCalls.v
theories/ObjProofs.v
theories/ObjProofs2.v
theories/ObjProofs3.v
theories/ObjProofs4.v
theories/ObjProofs5.v
theories/ObjProofs6.v
theories/ObjProps.v
theories/RbModel.v
theories/RbSpec.v
theories/RbProofs.v
theories/RbProofs2.v
theories/RbProofs3.v
theories/RbProofs4.v
theories/RbProofs5.v
theories/RbProofs6.v
theories/RbProps.v
theories/BcModel.v
theories/BcSpec.v
theories/BcProofs.v
theories/BcProofs2.v
theories/BcProofs3.v
theories/BcCalls.v
theories/BcProps.v
theories/MemModel.v
theories/MemSpec.v
theories/MemCalls.v
theories/MemProofs.v
theories/MemProps.v
theories/IterModel.v
theories/IterSpec.v
theories/IterProofs.v
theories/IterProofs2.v
theories/IterProofs3.v
theories/IterProofs4.v
theories/IterProofs5.v
theories/IterProps.v
theories/NumModel.v
theories/NumSpec.v
theories/NumProofs.v
theories/NumProofs2.v
theories/NumProofs3.v
theories/NumProofs4.v
theories/NumProps.v
theories/ArgsModel.v
theories/ArgsSpec.v
theories/ArgsProofs.v
theories/ArgsProofs2.v
theories/ArgsProofs3.v
theories/ArgsProps.v
theories/StackModel.v
theories/StackSpec.v
theories/StackProofs.v
theories/StackProofs2.v
theories/StackProofs3.v
theories/StackProps.v
theories/GenModel.v
theories/GenSpec.v
theories/GenProps.v
theories/PackModel.v
theories/PackSpec.v
theories/PackProofs.v
theories/PackProofs2.v
theories/PackProofs3.v
theories/PackProofs4.v
theories/PackProofs5.v
theories/PackProofs6.v
theories/PackProps.v
theories/RandModel.v
theories/RandSpec.v
theories/RandProofs.v
theories/RandProps.v
theories/RandProofs2.v
theories/LexModel.v
theories/LexSpec.v
theories/LexTokens.v
theories/LexProofs.v
theories/LexProofs2.v
theories/LexProofs3.v
theories/LexProofs4.v
theories/LexProofs5.v
theories/LexProofs6.v
theories/LexProofs7.v
theories/LexProps.v
theories/QuoteModel.v
theories/QuoteSpec.v
theories/QuoteProofs.v
theories/QuoteProofs2.v
theories/QuoteProofs3.v
theories/QuoteProps.v
theories/DblModel.v
theories/DblSpec.v
theories/DblProofs.v
theories/DblProofs2.v
theories/DblProofs3.v
theories/DblProofs4.v
theories/DblProofs5.v
theories/DblProofs6.v
theories/DblProps.v
theories/FoldModel.v
theories/FoldModel2.v
theories/FoldPoolModel.v
theories/FoldSpec.v
theories/FoldProofs.v
theories/FoldProofs2.v
theories/FoldProofs3.v
theories/FoldProofs4.v
theories/FoldProps.v
theories/DeadModel.v
theories/DeadSpec.v
theories/DeadProofs.v
theories/DeadProofs2.v
theories/DeadProofs3.v
theories/DeadProps.v
theories/CondModel.v
theories/CondSpec.v
theories/CondProofs.v
theories/CondProps.v
theories/CtlModel.v
theories/CtlSpec.v
theories/CtlProofs.v
theories/CtlProofs2.v
theories/CtlProofs3.v
theories/CtlProofs4.v
theories/CtlProofs5.v
theories/CtlProofs6.v
theories/CtlProps.v
theories/GcModel.v
theories/GcSpec.v
theories/GcProofs.v
theories/GcProofs2.v
theories/GcProofs3.v
theories/GcProofs4.v
theories/GcProofs5.v
theories/GcProofs6.v
theories/GcProofs7.v
theories/GcProofs8.v
theories/GcProofs9.v
theories/GcProofs10.v
theories/GcProps.v
theories/GcBits.v
theories/GcBitsProps.v
theories/DateModel.v
theories/DateSpec.v
theories/DateProofs.v
theories/DateProofs2.v
theories/DateProps.v
theories/JsonModel.v
theories/JsonSpec.v
theories/JsonProofs.v
theories/JsonProofs2.v
theories/JsonProofs3.v
theories/JsonProofs4.v
theories/JsonProofs5.v
theories/JsonProps.v
theories/ReSpec.v
theories/ReModel.v
theories/ReProofs1.v
theories/ReProofs2.v
theories/ReProofs3.v
theories/ReProofs4.v
theories/ReProofs5.v
theories/ReProofs6.v
theories/ReProofs7.v
theories/ReProofs8.v
theories/ReProofs9.v
theories/ReProps.v
theories/ArrayConcSpec.v
theories/ArrayConcModel.v
theories/ArrayConcProofs.v
theories/ArrayConcProofs2.v
theories/ArrayConcProofs3.v
theories/ArrayConcProofs4.v
theories/ArrayConcProofs5.v
theories/ArrayConcProofs6.v
theories/ArrayConcProps.v
theories/ObjConcSpec.v
theories/ObjConcModel.v
theories/ObjConcProofs.v
theories/ObjConcProofs2.v
theories/ObjConcProofs3.v
theories/ObjConcProofs4.v
theories/ObjConcProofs5.v
theories/ObjConcProofs6.v
theories/ObjConcProps.v
theories/ParseSpec.v
theories/ParseModel.v
theories/ParseProofs.v
theories/ParseProofs2.v
theories/ParseProofs3.v
theories/ParseProps.v
theories/VarsSpec.v
theories/VarsModel.v
theories/VarsProofs.v
theories/VarsProofs2.v
theories/VarsProps.v
theories/VarsMiscSpec.v
theories/VarsMiscModel.v
theories/VarsMiscProps.v
theories/LinesSpec.v
theories/LinesModel.v
theories/LinesProofs.v
theories/LinesProps.v
theories/ShuffleSpec.v
theories/ShuffleModel.v
theories/ShuffleProofs.v
theories/ShuffleProps.v
theories/SemSpec.v
theories/SemModel.v
theories/SemProofs.v
theories/SemProps.v
theories/QueueSpec.v
theories/QueueModel.v
theories/QueueProofs.v
theories/QueueProps.v
theories/StwSpec.v
theories/StwModel.v
theories/StwProofs.v
theories/StwProps.v
theories/StwEndProps.v
