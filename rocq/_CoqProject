-Q theories Verif
theories/PyBase.v
theories/PyDict.v
theories/PySort.v
theories/PyText.v
theories/HangleModel.v
theories/HangleSpec.v
theories/HangleProofs.v
theories/HangleProofs2.v
theories/HangleProps.v
theories/DistanceModel.v
theories/DistanceSpec.v
theories/CountLemmas.v
theories/DistanceProofs.v
theories/DistanceProofs2.v
theories/DistanceProps.v
theories/PyRe.v
theories/NormalizerModel.v
theories/NormalizerSpec.v
theories/PyReProofs.v
theories/NormalizerProofs.v
theories/NormalizerProofs2.v
theories/NormalizerProps.v
theories/SortLemmas.v
theories/TokenizerModel.v
theories/TokenizerSpec.v
theories/QLemmas.v
theories/RegexTokProofs.v
theories/LTokProofs.v
theories/MaxScoreProofs.v
theories/MaxScoreProofs2.v
theories/LRTokProofs.v
theories/NounTokProofs.v
theories/TokenizerProps.v
theories/PyFile.v
theories/UtilsModel.v
theories/UtilsSpec.v
theories/UtilsProofs.v
theories/UtilsProofs2.v
theories/UtilsProofs3.v
theories/UtilsProofs4.v
theories/UtilsProofs5.v
theories/UtilsProofs6.v
theories/UtilsProps.v
theories/WordModel.v
theories/WordSpec.v
theories/WordProofs.v
theories/WordProofs2.v
theories/WordProofs3.v
theories/WordProofs4.v
theories/WordProofs5.v
theories/WordProofs6.v
theories/WordProps.v
theories/VectorizerModel.v
theories/VectorizerSpec.v
theories/VectorizerProofs.v
theories/VectorizerProofs2.v
theories/VectorizerProofs3.v
theories/VectorizerProofs4.v
theories/VectorizerProps.v
theories/UtilsProps2.v
theories/PmiModel.v
theories/PmiProps.v
theories/TaggerModel.v
theories/TaggerDictProofs.v
theories/TaggerSpec.v
theories/TaggerProofs.v
theories/TaggerProofs2.v
theories/TaggerProofs3.v
theories/TaggerProps.v
theories/NounModel.v
theories/NounSpec.v
theories/NounProofs.v
theories/NounProofs2.v
theories/NounProps.v
theories/NounProps2.v
theories/NounSpec2.v
theories/NounProofs3.v
theories/NounProofs4.v
theories/NounProofs5.v
theories/JosaModel.v
theories/NounProofs6.v
theories/NounProps3.v
theories/LemmaModel.v
theories/LemmaSpec.v
theories/LemmaProofs.v
theories/LemmaProofs2.v
theories/LemmaProofs3.v
theories/LemmaProofs4.v
theories/LemmaProofs5.v
theories/LemmaProofs6.v
theories/LemmaProofs7.v
theories/LemmaProps.v
theories/PredModel.v
theories/PredSpec.v
theories/PredProofs.v
theories/PredProofs2.v
theories/PredProofs3.v
theories/PredProofs4.v
theories/PredProps.v
theories/PredSpec2.v
theories/PredProofs5.v
theories/PredProofs6.v
theories/PredProofs7.v
theories/PredProps2.v
theories/PredSpec3.v
theories/PredProofs8.v
theories/PredProofs9.v
theories/PredProofs10.v
theories/PredProps3.v
theories/PredProps4.v
theories/JosaSpec.v
theories/JosaProofs.v
theories/JosaProps.v
theories/NounV1Model.v
theories/NounV1Spec.v
theories/NounV1Proofs.v
theories/NounV1Proofs2.v
theories/NounV1Proofs3.v
theories/NounV1Proofs4.v
theories/NounV1Proofs5.v
theories/NounV1Props.v
theories/NewsModel.v
theories/NewsSpec.v
theories/NewsProofs.v
theories/NewsProofs2.v
theories/NewsProofs3.v
theories/NewsProofs4.v
theories/NewsProofs5.v
theories/NewsProofs6.v
theories/NewsProps.v
theories/PosModel.v
theories/PosSpec.v
theories/PosProofs.v
theories/PosProofs2.v
theories/PosProofs3.v
theories/PosProofs4.v
theories/PosProofs5.v
theories/PosProofs6.v
theories/PosProofs7.v
theories/PosProofs8.v
theories/PosProofs9.v
theories/PosProofs10.v
theories/PosProps.v
theories/LRTokSpec.v
theories/LRTokModel.v
theories/LRTokProofs2.v
theories/LRTokProofs3.v
theories/LRTokProofs4.v
theories/LRTokProps.v
theories/BuilderModel.v
theories/BuilderSpec.v
theories/BuilderProofs.v
theories/BuilderProofs2.v
theories/BuilderProofs3.v
theories/BuilderProps.v
theories/PosTrainModel.v
theories/PosTrainSpec.v
theories/PosTrainProofs.v
theories/PosTrainProofs2.v
theories/PosTrainProps.v
theories/BuilderProps2.v
theories/CrashModel.v
theories/CrashSpec.v
theories/CrashProofs.v
theories/CrashProofs2.v
theories/CrashProofs3.v
theories/CrashProofs4.v
theories/CrashProps.v
theories/CrashProps2.v
theories/CrashProps3.v
theories/AliasModel.v
theories/AliasSpec.v
theories/AliasProofs.v
theories/AliasProofs2.v
theories/AliasProofs3.v
theories/AliasProofs4.v
theories/AliasProofs5.v
theories/AliasProps.v
theories/LemmaProps2.v
theories/VerboseModel.v
theories/VerboseProps.v
theories/JsonModel.v
theories/JsonSpec.v
theories/JsonProofs.v
theories/JsonProofs2.v
theories/JsonProofs3.v
theories/JsonProps.v
theories/RaiseProps.v
theories/JsonProps2.v
theories/ShareModel.v
theories/ShareSpec.v
theories/ShareProofs.v
theories/ShareProofs2.v
theories/ShareProps.v
theories/TagModeModel.v
theories/TagModeProps.v
theories/TagShareModel.v
theories/TagShareSpec.v
theories/TagShareProofs.v
theories/TagShareProofs2.v
theories/TagShareProps.v
theories/BuilderCrashSpec.v
theories/BuilderCrashProofs.v
theories/BuilderCrashProofs2.v
theories/BuilderCrashProps.v
theories/WordSaveModel.v
theories/WordSaveSpec.v
theories/WordSaveProofs.v
theories/WordSaveProps.v
theories/TokShareModel.v
theories/TokShareSpec.v
theories/TokShareProofs.v
theories/TokShareProps.v
theories/LRCallModel.v
theories/LRCallProps.v
theories/NounLifeModel.v
theories/NounLifeProofs.v
theories/NounLifeProps.v
theories/NounV1LifeModel.v
theories/NounV1LifeSpec.v
theories/NounV1LifeProofs.v
theories/NounV1LifeProps.v
theories/VecLifeModel.v
theories/VecLifeSpec.v
theories/VecLifeProofs.v
theories/VecLifeProps.v
