-Q theories Verif
theories/CombineModel.v
theories/CombineProofs.v
theories/NumericModel.v
theories/NumericSpec.v
theories/NumericProofs.v
theories/NumericProps.v
theories/SortModel.v
theories/SortProofs.v
theories/FloatModel.v
theories/MeanVarModel.v
theories/MeanVarSpec.v
theories/MeanVarProofs.v
theories/WeightedModel.v
theories/WeightedSpec.v
theories/WeightedProofs.v
theories/MeanVarProps.v
theories/PerKeyModel.v
theories/PerKeyProofs.v
theories/PerKeyProps.v
theories/ScaleModel.v
theories/ScaleSpec.v
theories/ScaleProofs.v
theories/ZScoreModel.v
theories/ZScoreSpec.v
theories/ZScoreProofs.v
theories/ScaleProps.v
theories/BucketModel.v
theories/BucketSpec.v
theories/BucketProofs.v
theories/BucketProps.v
theories/VocabModel.v
theories/VocabSpec.v
theories/VocabProofs.v
theories/VocabFileModel.v
theories/VocabFileProofs.v
theories/VocabProps.v
theories/MiscModel.v
theories/MiscSpec.v
theories/MiscProofs.v
theories/MiscProps.v
theories/SparseModel.v
theories/SparseSpec.v
theories/SparseProofs.v
theories/SparseRowsProofs.v
theories/TfidfProofs.v
theories/SparseProps.v
theories/CacheCoderModel.v
theories/CacheCoderSpec.v
theories/CacheCoderProofs.v
theories/CacheFSModel.v
theories/CacheFSSpec.v
theories/CacheFSProofs.v
theories/CacheKeyModel.v
theories/CacheKeySpec.v
theories/CacheKeyProofs.v
theories/CacheProps.v
theories/TraverseModel.v
theories/TraverseSpec.v
theories/TraverseProofs.v
theories/TraverseProps.v
theories/ReadyModel.v
theories/ReadySpec.v
theories/ReadyProofs.v
theories/TablesProofs.v
theories/PhaseModel.v
theories/PhaseSpec.v
theories/PhaseProofs.v
theories/ReadyProps.v
theories/PhaseProps.v
theories/OptimizeModel.v
theories/OptimizeSpec.v
theories/OptimizeProofs.v
theories/OptimizeShape.v
theories/OptimizeHistory.v
theories/OptimizeExample.v
theories/OptimizeProps.v
theories/CacheHashModel.v
theories/CacheHashSpec.v
theories/CacheHashProofs.v
theories/CacheHashExample.v
theories/CacheHashProps.v
theories/PackModel.v
theories/PackSpec.v
theories/PackProofs.v
theories/PackGraphModel.v
theories/PackGraphSpec.v
theories/PackTraverse.v
theories/PackAccProofs.v
theories/PackProps.v
theories/PackMergeProofs.v
theories/PackFinalProofs.v
theories/PackGraphExample.v
theories/PackGraphProps.v
theories/DeepCopyModel.v
theories/DeepCopySpec.v
theories/DeepCopyProofs.v
theories/DeepCopySearch.v
theories/DeepCopyFinal.v
theories/DeepCopyExample.v
theories/DeepCopyProps.v
theories/CsvModel.v
theories/CsvSpec.v
theories/CsvProofs.v
theories/CsvExample.v
theories/CsvProps.v
theories/ExampleProtoModel.v
theories/ExampleProtoSpec.v
theories/ExampleProtoProofs.v
theories/ExampleProtoExample.v
theories/ExampleProtoProps.v
theories/VarlenModel.v
theories/VarlenSpec.v
theories/VarlenProofs.v
theories/VarlenProps.v
theories/TukeyModel.v
theories/TukeySpec.v
theories/TukeyProofs.v
theories/TukeyNumbers.v
theories/TukeyExample.v
theories/TukeyProps.v
theories/InspectModel.v
theories/InspectSpec.v
theories/InspectProofs.v
theories/InspectExample.v
theories/InspectProps.v
theories/ContextModel.v
theories/ContextSpec.v
theories/ContextProofs.v
theories/ContextProps.v
theories/HistogramModel.v
theories/HistogramSpec.v
theories/HistogramProofs.v
theories/HistogramProps.v
theories/TransformModel.v
theories/TransformSpec.v
theories/TransformProofs.v
theories/TransformExample.v
theories/TransformProps.v
theories/PublishModel.v
theories/PublishSpec.v
theories/PublishProofs.v
theories/PublishFinal.v
theories/PublishExample.v
theories/PublishProps.v
theories/DocFreqModel.v
theories/DocFreqSpec.v
theories/DocFreqProofs.v
theories/DocFreqProps.v
theories/ServeModel.v
theories/ServeSpec.v
theories/ServeProofs.v
theories/ServeApply.v
theories/ServeExample.v
theories/ServeProps.v
theories/InfoModel.v
theories/InfoSpec.v
theories/InfoProofs.v
theories/InfoToken.v
theories/InfoLink.v
theories/InfoExample.v
theories/InfoProps.v
theories/PyFuncModel.v
theories/PyFuncSpec.v
theories/PyFuncProofs.v
theories/PyFuncHistory.v
theories/PyFuncExample.v
theories/PyFuncProps.v
theories/LMomentsModel.v
theories/LMomentsSpec.v
theories/LMomentsProofs.v
theories/LMomentsMerge.v
theories/LMomentsTukey.v
theories/LMomentsExample.v
theories/LMomentsProps.v
theories/LambertSpec.v
theories/LambertProofs.v
theories/LambertInverse.v
theories/LambertProps.v
theories/PcaModel.v
theories/PcaSpec.v
theories/PcaProofs.v
theories/PcaVariance.v
theories/PcaAnalysis.v
theories/PcaExample.v
theories/PcaProps.v
theories/SchemaModel.v
theories/SchemaSpec.v
theories/SchemaProofs.v
theories/SchemaCommon.v
theories/SchemaInfer.v
theories/SchemaGraph.v
theories/SchemaNames.v
theories/SchemaExample.v
theories/SchemaProps.v
theories/FullPassModel.v
theories/FullPassSpec.v
theories/FullPassProofs.v
theories/FullPassRun.v
theories/FullPassUnique.v
theories/FullPassExample.v
theories/FullPassProps.v
theories/RetraceModel.v
theories/RetraceSpec.v
theories/RetraceProofs.v
theories/RetraceRun.v
theories/RetraceExample.v
theories/RetraceProps.v
theories/PerKeyFileModel.v
theories/PerKeyFileSpec.v
theories/PerKeyFileProofs.v
theories/PerKeyFileExample.v
theories/PerKeyFileProps.v
theories/CooccurModel.v
theories/CooccurSpec.v
theories/CooccurProofs.v
theories/CooccurRows.v
theories/CooccurBatch.v
theories/CooccurLink.v
theories/CooccurUnweighted.v
theories/CooccurInfo.v
theories/CooccurExample.v
theories/CooccurProps.v
theories/ByNameModel.v
theories/ByNameSpec.v
theories/ByNameProofs.v
theories/ByNameLink.v
theories/ByNameExample.v
theories/ByNameProps.v
theories/TrackModel.v
theories/TrackSpec.v
theories/TrackProofs.v
theories/TrackExample.v
theories/TrackProps.v
theories/WireModel.v
theories/WireSpec.v
theories/WireProofs.v
theories/WireMessages.v
theories/WireExample.v
theories/WireProps.v
theories/QuantileModel.v
theories/QuantileSpec.v
theories/QuantileProofs.v
theories/QuantileExample.v
theories/QuantileProps.v
theories/ApproxModel.v
theories/ApproxSpec.v
theories/ApproxProofs.v
theories/ApproxSketch.v
theories/ApproxSketchProofs.v
theories/ApproxExample.v
theories/ApproxProps.v
theories/FspecModel.v
theories/FspecSpec.v
theories/FspecProofs.v
theories/FspecReadProofs.v
theories/FspecExample.v
theories/FspecProps.v
theories/SharedModel.v
theories/SharedSpec.v
theories/SharedProofs.v
theories/SharedLifeProofs.v
theories/SharedExample.v
theories/SharedProps.v
theories/LegacyModel.v
theories/LegacySpec.v
theories/LegacyJsonProofs.v
theories/LegacyProofs.v
theories/LegacyExample.v
theories/LegacyProps.v
theories/IeeeModel.v
theories/IeeeSpec.v
theories/IeeeProofs.v
theories/IeeeScaleProofs.v
theories/IeeeColumnProofs.v
theories/IeeeZProofs.v
theories/IeeeExample.v
theories/IeeeProps.v
theories/InterpModel.v
theories/InterpSpec.v
theories/InterpProofs.v
theories/InterpTopProofs.v
theories/InterpExample.v
theories/InterpProps.v
theories/FsumModel.v
theories/FsumSpec.v
theories/FsumProofs.v
theories/FsumExample.v
theories/FsumProps.v
theories/RollModel.v
theories/RollSpec.v
theories/RollProofs.v
theories/RollProps.v
theories/FmvModel.v
theories/FmvSpec.v
theories/FmvFloat.v
theories/FmvFormulas.v
theories/FmvProofs.v
theories/FmvBatch.v
theories/FmvExample.v
theories/FmvProps.v
theories/FmvAccuracy.v
theories/FzModel.v
theories/FzSpec.v
theories/FzProofs.v
theories/FzProps.v
theories/FpkModel.v
theories/FpkSpec.v
theories/FpkSearch.v
theories/FpkRow.v
theories/FpkProofs.v
theories/FpkExample.v
theories/FpkProps.v
theories/SelModel.v
theories/SelSpec.v
theories/SelProofs.v
theories/SelInt.v
theories/SelFloat.v
theories/SelExample.v
theories/SelProps.v
theories/BpkModel.v
theories/BpkSpec.v
theories/BpkProofs.v
theories/BpkExample.v
theories/BpkProps.v
theories/RegModel.v
theories/RegSpec.v
theories/RegProofs.v
theories/RegExample.v
theories/RegProps.v
theories/FzkModel.v
theories/FzkSpec.v
theories/FzkBatch.v
theories/FzkGen.v
theories/FzkProofs.v
theories/FzkExample.v
theories/FzkProps.v
theories/FzkInv.v
theories/FmmModel.v
theories/FmmSpec.v
theories/FmmProofs.v
theories/FmmExample.v
theories/FmmProps.v
theories/PreModel.v
theories/PreSpec.v
theories/PreProofs.v
theories/PreSaved.v
theories/PreExample.v
theories/PreProps.v
theories/CustModel.v
theories/CustSpec.v
theories/CustProofs.v
theories/CustExample.v
theories/CustProps.v
theories/TypModel.v
theories/TypSpec.v
theories/TypProofs.v
theories/TypExample.v
theories/TypProps.v
theories/ImpModel.v
theories/ImpSpec.v
theories/ImpNames.v
theories/ImpProofs.v
theories/ImpApply.v
theories/ImpExample.v
theories/ImpProps.v
theories/SupModel.v
theories/SupSpec.v
theories/SupProofs.v
theories/SupProps.v
theories/LayModel.v
theories/LaySpec.v
theories/LayProps.v
theories/InpModel.v
theories/InpSpec.v
theories/InpProps.v
theories/EntModel.v
theories/EntSpec.v
theories/EntProps.v
theories/StripModel.v
theories/StripSpec.v
theories/StripProps.v
theories/TabModel.v
theories/TabSpec.v
theories/TabProps.v
theories/ResModel.v
theories/ResSpec.v
theories/ResProps.v
