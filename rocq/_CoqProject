-Q theories Verif
theories/AlgWalkModel.v
theories/AlgWalkProofs.v
theories/AlgWalkProperties.v
theories/AlgWalkSpec.v
theories/Base.v
theories/Base64Model.v
theories/Base64Proofs.v
theories/Base64Properties.v
theories/Base64Spec.v
theories/BigModel.v
theories/BigOpProofs.v
theories/BigProgModel.v
theories/BigProgProofs.v
theories/BigProgProperties.v
theories/BigProgSpec.v
theories/BigProofs.v
theories/BigProperties.v
theories/BigSpec.v
theories/BigStepProofs.v
theories/BigThmProofs.v
theories/BstCostModel.v
theories/BstCostProofs.v
theories/BstCostProperties.v
theories/BstCostSpec.v
theories/BstMainProofs.v
theories/BstModel.v
theories/BstProofs.v
theories/BstProperties.v
theories/BstSpec.v
theories/CallModel.v
theories/CallProofs.v
theories/CallProperties.v
theories/CallSpec.v
theories/CastModel.v
theories/CastProofs.v
theories/CastProperties.v
theories/CastSpec.v
theories/ContModel.v
theories/ContProofs.v
theories/ContProperties.v
theories/ContSpec.v
theories/DecModel.v
theories/DecProofs.v
theories/DeqRefModel.v
theories/DeqRefProofs.v
theories/DeqRefProperties.v
theories/DeqRefSpec.v
theories/DiscBinProofs.v
theories/DiscExProofs.v
theories/DiscLoopProofs.v
theories/DiscNegProofs.v
theories/DiscProofs.v
theories/DiscProperties.v
theories/DiscSpec.v
theories/DistAccProofs.v
theories/DistDrawProofs.v
theories/DistGammaProofs.v
theories/DistHistProofs.v
theories/DistMainProofs.v
theories/DistModel.v
theories/DistNumProofs.v
theories/DistNumProperties.v
theories/DistNumSpec.v
theories/DistProofs.v
theories/DistProperties.v
theories/DistRealProofs.v
theories/DistRealProperties.v
theories/DistRealSpec.v
theories/DistSpec.v
theories/EdgeContModel.v
theories/EdgeContProofs.v
theories/EdgeContProperties.v
theories/EdgeContSpec.v
theories/EditModel.v
theories/EditProofs.v
theories/EditProperties.v
theories/EditSpec.v
theories/FairProofs.v
theories/FairProperties.v
theories/FairSpec.v
theories/Float.v
theories/FloatProofs.v
theories/FloatSumModel.v
theories/FloatSumProofs.v
theories/FloatSumProperties.v
theories/FloatSumSpec.v
theories/FracEdgeProofs.v
theories/FracEdgeProperties.v
theories/FracEdgeSpec.v
theories/FracModel.v
theories/FracProofs.v
theories/FracProperties.v
theories/FracSpec.v
theories/GeoFloatProofs.v
theories/GeoFloatProperties.v
theories/GeoFloatSpec.v
theories/GeoModel.v
theories/GeoProofs.v
theories/GeoProperties.v
theories/GeoSpec.v
theories/GeoWholeProofs.v
theories/GraphModel.v
theories/GraphProofs.v
theories/GraphProperties.v
theories/GraphSpec.v
theories/IntTextModel.v
theories/IntTextProofs.v
theories/IntTextProperties.v
theories/IntTextSpec.v
theories/IntTyBinProofs.v
theories/IntTyFunProofs.v
theories/IntTyLcmProofs.v
theories/IntTyModel.v
theories/IntTyProofs.v
theories/IntTyProperties.v
theories/IntTySpec.v
theories/JsonCostModel.v
theories/JsonCostProofs.v
theories/JsonCostProperties.v
theories/JsonCostSpec.v
theories/JsonDumpModel.v
theories/JsonDumpProofs.v
theories/JsonDumpProperties.v
theories/JsonDumpSpec.v
theories/JsonFloatModel.v
theories/JsonFloatProofs.v
theories/JsonFloatProperties.v
theories/JsonFloatSpec.v
theories/JsonHeapEnvProofs.v
theories/JsonHeapModel.v
theories/JsonHeapNavProofs.v
theories/JsonHeapOpsProofs.v
theories/JsonHeapProofs.v
theories/JsonHeapProperties.v
theories/JsonHeapRunProofs.v
theories/JsonHeapSpec.v
theories/JsonHeapStepProofs.v
theories/JsonHeapUseProofs.v
theories/JsonHeapWalkProofs.v
theories/JsonLooseProofs.v
theories/JsonLooseProperties.v
theories/JsonLooseSpec.v
theories/JsonLostProofs.v
theories/JsonLostProperties.v
theories/JsonLostSpec.v
theories/JsonMemberProperties.v
theories/JsonModel.v
theories/JsonProofs.v
theories/JsonProperties.v
theories/JsonRoundProofs.v
theories/JsonSpec.v
theories/JsonTextProofs.v
theories/JsonTextProperties.v
theories/JsonTextSpec.v
theories/KmpCostModel.v
theories/KmpCostProofs.v
theories/KmpCostProperties.v
theories/KmpModel.v
theories/KmpProofs.v
theories/KmpProperties.v
theories/KmpSpec.v
theories/ListRefModel.v
theories/ListRefProofs.v
theories/ListRefProperties.v
theories/ListRefSpec.v
theories/ListWalkModel.v
theories/ListWalkProofs.v
theories/ListWalkProperties.v
theories/ListWalkSpec.v
theories/MMWalkModel.v
theories/MMWalkProofs.v
theories/MMWalkProperties.v
theories/MMWalkSpec.v
theories/MapRefModel.v
theories/MapRefProofs.v
theories/MapRefProperties.v
theories/MapRefSpec.v
theories/MatAnyModel.v
theories/MatAnyProofs.v
theories/MatAnyProperties.v
theories/MatAnySpec.v
theories/MatHeapArithProofs.v
theories/MatHeapMainProofs.v
theories/MatHeapModel.v
theories/MatHeapOpProofs.v
theories/MatHeapProofs.v
theories/MatHeapProperties.v
theories/MatHeapSpec.v
theories/MatIntModel.v
theories/MatIntProofs.v
theories/MatIntProperties.v
theories/MatIntReduceProofs.v
theories/MatIntSpec.v
theories/MatModel.v
theories/MatProofs.v
theories/MatProperties.v
theories/MatReduceProofs.v
theories/MatSpec.v
theories/NormFloatProofs.v
theories/NormModel.v
theories/NormProofs.v
theories/NormProperties.v
theories/NormSpec.v
theories/NumBinProofs.v
theories/NumCostModel.v
theories/NumCostProofs.v
theories/NumCostProperties.v
theories/NumCostSpec.v
theories/NumModel.v
theories/NumPowProofs.v
theories/NumProofs.v
theories/NumProperties.v
theories/NumSpec.v
theories/NumTextIOProofs.v
theories/NumTextModel.v
theories/NumTextProofs.v
theories/NumTextProperties.v
theories/NumTextSpec.v
theories/OutModel.v
theories/OutProofs.v
theories/OutProperties.v
theories/OutSpec.v
theories/PointHeapModel.v
theories/PointHeapProofs.v
theories/PointHeapProperties.v
theories/PointHeapSpec.v
theories/Rand64.v
theories/RandCdfProofs.v
theories/RandDoubleProofs.v
theories/RandModel.v
theories/RandProofs.v
theories/RandProperties.v
theories/RandSamplerProofs.v
theories/RandSpec.v
theories/RefModel.v
theories/RefProofs.v
theories/RefProperties.v
theories/RefSpec.v
theories/SegAnyDProofs.v
theories/SegAnyModel.v
theories/SegAnyProofs.v
theories/SegAnyProperties.v
theories/SegAnySpec.v
theories/SegAnyZProofs.v
theories/SegCostModel.v
theories/SegCostProofs.v
theories/SegCostProperties.v
theories/SegCostSpec.v
theories/SegExactProofs.v
theories/SegExactProperties.v
theories/SegExactSpec.v
theories/SegIntMainProofs.v
theories/SegIntModel.v
theories/SegIntProofs.v
theories/SegIntProperties.v
theories/SegIntSpec.v
theories/SegMainProofs.v
theories/SegModel.v
theories/SegProofs.v
theories/SegProperties.v
theories/SegSizeProofs.v
theories/SegSpec.v
theories/SegTyMainProofs.v
theories/SegTyModel.v
theories/SegTyProofs.v
theories/SegTyProperties.v
theories/SegTySpec.v
theories/SeqModel.v
theories/SeqProofs.v
theories/SeqProperties.v
theories/StatErrProofs.v
theories/StatMainProofs.v
theories/StatModel.v
theories/StatProofs.v
theories/StatProperties.v
theories/StatSpec.v
theories/TreeCostModel.v
theories/TreeCostProofs.v
theories/TreeCostProperties.v
theories/TreeCostSpec.v
theories/TreeModel.v
theories/TreeProofs.v
theories/TreeProperties.v
theories/TreeSpec.v
theories/TrieCaseProofs.v
theories/TrieCostModel.v
theories/TrieCostProofs.v
theories/TrieCostProperties.v
theories/TrieCostSpec.v
theories/TrieIterProofs.v
theories/TrieMemProofs.v
theories/TrieMemProperties.v
theories/TrieMemSpec.v
theories/TrieModel.v
theories/TrieMoveProofs.v
theories/TrieOpsProofs.v
theories/TrieProofs.v
theories/TrieProperties.v
theories/TrieSetProofs.v
theories/TrieSpec.v
theories/UrlModel.v
theories/UrlProofs.v
theories/UrlProperties.v
theories/UrlSpec.v
theories/VecAnyModel.v
theories/VecAnyProofs.v
theories/VecAnyProperties.v
theories/VecAnySpec.v
theories/VecIOModel.v
theories/VecIOProofs.v
theories/VecIOProperties.v
theories/VecIOSpec.v
theories/VecWalkModel.v
theories/VecWalkProofs.v
theories/VecWalkProperties.v
theories/VecWalkSpec.v
theories/VertMoveModel.v
theories/VertMoveProofs.v
theories/VertMoveProperties.v
theories/VertMoveSpec.v
theories/WalkModel.v
theories/WalkProofs.v
theories/WalkProperties.v
theories/WalkSpec.v
