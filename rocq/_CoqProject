-Q theories Verif
theories/Base.v
theories/ListFacts.v
theories/PvecModel.v
theories/PvecSpec.v
theories/PvecFacts.v
theories/PvecShape.v
theories/PvecEnds.v
theories/PvecHist.v
theories/PvecFront.v
theories/PvecSafe.v
theories/PvecComb.v
theories/PvecFlat.v
theories/PvecQueue.v
theories/PvecProps.v
theories/ChoiceModel.v
theories/ChoiceSpec.v
theories/ChoiceFacts.v
theories/ChoiceProps.v
theories/Types.v
theories/ValidatedModel.v
theories/ValidatedSpec.v
theories/ValidatedProps.v
theories/LawSpec.v
theories/SumModel.v
theories/SumProps.v
theories/EffModel.v
theories/EffSpec.v
theories/EffProps.v
theories/DropModel.v
theories/DropProps.v
theories/ErrModel.v
theories/ErrSpec.v
theories/ErrProps.v
theories/UtilModel.v
theories/UtilProps.v
theories/IOModel.v
theories/IOSpec.v
theories/IOProps.v
theories/ConcModel.v
theories/ConcProps.v
theories/MemoSpec.v
theories/MemoProps.v
theories/OpticModel.v
theories/OpticSpec.v
theories/OpticProps.v
theories/WrapModel.v
theories/WrapSpec.v
theories/WrapProps.v
theories/SemiModel.v
theories/SemiSpec.v
theories/SemiProps.v
theories/AsyncModel.v
theories/AsyncSpec.v
theories/AsyncProps.v
theories/VAsyncModel.v
theories/VAsyncSpec.v
theories/VAsyncProps.v
theories/GenSpec.v
theories/PvecGenModel.v
theories/PvecGenProps.v
theories/AccessModel.v
theories/AccessSpec.v
theories/AccessProps.v
theories/MiscModel.v
theories/MiscSpec.v
theories/MiscProps.v
theories/TextModel.v
theories/TextSpec.v
theories/TextProps.v
theories/ParseErrModel.v
theories/ParseErrSpec.v
theories/ParseErrProps.v
theories/LazyModel.v
theories/LazySpec.v
theories/LazyProps.v
theories/OrdModel.v
theories/OrdSpec.v
theories/OrdProps.v
theories/CallModel.v
theories/WalkSpec.v
theories/WalkProps.v
theories/SeqProps.v
theories/CallSpec.v
theories/CallProps.v
theories/CmpModel.v
theories/CmpSpec.v
theories/CmpProps.v
theories/CostModel.v
theories/CostSpec.v
theories/CostProps.v
theories/CountModel.v
theories/CountProps.v
theories/CopyModel.v
theories/CopySpec.v
theories/CopyProps.v
theories/CopyExactProps.v
theories/TestsReadme.v
theories/TestsPvec.v
theories/TestsChoice.v
theories/TestsValidated.v
theories/TestsSum.v
theories/TestsEff.v
theories/TestsErr.v
theories/TestsOptic.v
theories/TestsAsync.v
theories/TestsDocChoice.v
theories/TestsDocEff.v
theories/CtxModel.v
theories/CtxProps.v
theories/PoolModel.v
theories/PoolProps.v
theories/Memo1Model.v
theories/Memo1Spec.v
theories/Memo1Props.v
theories/SerdeModel.v
theories/SerdeSpec.v
theories/SerdeProps.v
theories/ConcatSpec.v
theories/ConcatProps.v
theories/AnySpec.v
theories/AnyProps.v
theories/ArbModel.v
theories/ArbSpec.v
theories/ArbProps.v
theories/AliasModel.v
theories/AliasSpec.v
theories/AliasProps.v
theories/HintModel.v
theories/HintSpec.v
theories/HintProps.v
theories/DeferModel.v
theories/DeferSpec.v
theories/DeferProps.v
theories/ArrowModel.v
theories/ArrowSpec.v
theories/ArrowProps.v
theories/OnceModel.v
theories/OnceSpec.v
theories/OnceProps.v
theories/CloneModel.v
theories/CloneSpec.v
theories/CloneProps.v
theories/ParserModel.v
theories/ParserSpec.v
theories/ParserProps.v
theories/SqlProps.v
theories/MigrateModel.v
theories/MigrateProps.v
theories/ExampleModel.v
theories/ExampleProps.v
theories/DepthModel.v
theories/DepthSpec.v
theories/DepthProps.v
theories/PvecEqProps.v
theories/PvecPanicProps.v
theories/PvecDequeSpec.v
theories/PvecDequeProps.v
theories/PvecGapSpec.v
theories/PvecGapProps.v
theories/PvecTrimSpec.v
theories/PvecTrimProps.v
theories/PvecLeftProps.v
theories/PvecViewsSpec.v
theories/PvecViewsProps.v
theories/ShareModel.v
theories/ShareSpec.v
theories/ShareProps.v
theories/ShareHighProps.v
