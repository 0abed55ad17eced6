-Q theories Verif

theories/Base.v
theories/EncodingModel.v
theories/EncodingSpec.v
theories/EncodingProofs.v
theories/EncodingProofs2.v
theories/EncodingProofs3.v
theories/TruncPadModel.v
theories/TruncPadProofs.v
theories/EncodingProps.v
theories/StrBytes.v
theories/ListFacts.v
theories/NormModel.v
theories/NormSpec.v
theories/NormProofs.v
theories/NormProofs2.v
theories/NormProofs3.v
theories/NormProofs4.v
theories/NormProofs5.v
theories/NormProofs6.v
theories/PatternModel.v
theories/PatternSpec.v
theories/PatternProofs.v
theories/NormProps.v
theories/PreTokModel.v
theories/PreTokSpec.v
theories/PreTokProofs.v
theories/PreTokProofs2.v
theories/PreTokProps.v
theories/AMap.v
theories/AddedModel.v
theories/AddedSpec.v
theories/AddedProofs.v
theories/AddedProofs2.v
theories/AddedProofs3.v
theories/AddedProofs4.v
theories/AddedProps.v
theories/Utf8.v
theories/BpeWordModel.v
theories/BpeWordSpec.v
theories/BpeWordProofs.v
theories/BpeModel.v
theories/BpeSpec.v
theories/BpeProofs.v
theories/BpeProps.v
theories/CacheModel.v
theories/CacheSpec.v
theories/CacheProps.v
theories/WordPieceModel.v
theories/WordPieceSpec.v
theories/WordPieceProps.v
theories/TrieModel.v
theories/TrieProps.v
theories/UnigramModel.v
theories/UnigramSpec.v
theories/UnigramProofs.v
theories/UnigramProofs2.v
theories/UnigramProofs3.v
theories/UnigramProofs4.v
theories/UnigramProofs5.v
theories/UnigramProps.v
theories/UnigramFloatProps.v
theories/ByteLevelModel.v
theories/ProcessorsModel.v
theories/ProcessorsSpec.v
theories/ProcessorsProofs.v
theories/ProcessorsProofs2.v
theories/ProcessorsProofs3.v
theories/ProcessorsProofs4.v
theories/ProcessorsProofs5.v
theories/ProcessorsProofs6.v
theories/ProcessorsProps.v
theories/DecodersModel.v
theories/DecodersSpec.v
theories/DecodersProofs.v
theories/DecodersProofs2.v
theories/DecodersProofs3.v
theories/DecodersProps.v
theories/StreamModel.v
theories/StreamSpec.v
theories/StreamProofs.v
theories/StreamProofs2.v
theories/StreamProps.v
theories/TokenizerModel.v
theories/TokenizerSpec.v
theories/TokenizerProofs.v
theories/TokenizerProofs2.v
theories/TokenizerProofs3.v
theories/TokenizerProps.v
theories/EndToEndSpec.v
theories/EndToEndProofs.v
theories/EndToEndProps.v
theories/BpeTrainModel.v
theories/BpeTrainSpec.v
theories/BpeTrainProofs.v
theories/BpeTrainProofs2.v
theories/BpeTrainProofs3.v
theories/BpeTrainProofs4.v
theories/BpeTrainProofs5.v
theories/BpeTrainProofs6.v
theories/BpeTrainProofs7.v
theories/BpeTrainProofs8.v
theories/BpeTrainProofs9.v
theories/BpeTrainProps.v
theories/TrainersModel.v
theories/TrainersSpec.v
theories/TrainersProofs.v
theories/TrainersProofs2.v
theories/TrainersProps.v
theories/PreTokenizersModel.v
theories/PreTokenizersSpec.v
theories/PreTokenizersProofs.v
theories/PreTokenizersProofs2.v
theories/PreTokenizersProofs3.v
theories/PreTokenizersProps.v
theories/ModelFilesModel.v
theories/ModelFilesSpec.v
theories/ModelFilesProofs.v
theories/ModelFilesProofs2.v
theories/ModelFilesProofs3.v
theories/ModelFilesProofs4.v
theories/ModelFilesProps.v
theories/NormalizersModel.v
theories/NormalizersSpec.v
theories/NormalizersProofs.v
theories/NormalizersProofs2.v
theories/NormalizersProps.v
theories/RoundTripModel.v
theories/RoundTripSpec.v
theories/RoundTripProofs.v
theories/RoundTripProps.v
theories/SpmTripModel.v
theories/SpmTripSpec.v
theories/SpmTripProofs.v
theories/SpmTripProps.v
theories/ComponentFilesModel.v
theories/ComponentFilesSpec.v
theories/ComponentFilesProofs.v
theories/ComponentFilesProofs2.v
theories/ComponentFilesProofs3.v
theories/ComponentFilesProps.v
theories/TokenizerFilesModel.v
theories/TokenizerFilesSpec.v
theories/TokenizerFilesProofs.v
theories/TokenizerFilesProofs2.v
theories/TokenizerFilesProofs3.v
theories/TokenizerFilesProps.v
theories/NBestSpec.v
theories/NBestProofs.v
theories/NBestProofs2.v
theories/NBestProps.v
theories/MarginalModel.v
theories/MarginalSpec.v
theories/MarginalProofs.v
theories/MarginalProofs2.v
theories/MarginalProofs3.v
theories/MarginalProofs4.v
theories/MarginalProps.v
theories/MarginalRealProps.v
theories/UnigramTrainModel.v
theories/UnigramTrainSpec.v
theories/UnigramTrainProofs.v
theories/UnigramTrainProofs2.v
theories/UnigramTrainProofs3.v
theories/UnigramTrainProofs4.v
theories/UnigramTrainProofs5.v
theories/UnigramTrainProofs6.v
theories/UnigramTrainProofs7.v
theories/UnigramTrainProps.v
theories/UnigramTrainRealProps.v
theories/TemplateTextModel.v
theories/TemplateTextSpec.v
theories/TemplateTextProofs.v
theories/TemplateTextProps.v
theories/TokenizerTrainModel.v
theories/TokenizerTrainSpec.v
theories/TokenizerTrainProofs.v
theories/TokenizerTrainProps.v
theories/ParallelModel.v
theories/ParallelSpec.v
theories/ParallelProps.v
theories/MetaTripSpec.v
theories/MetaTripProofs.v
theories/MetaTripProps.v
theories/TrainSaveModel.v
theories/TrainSaveProps.v
theories/PyInputModel.v
theories/PyInputSpec.v
theories/PyInputProps.v
theories/PyNormModel.v
theories/PyNormSpec.v
theories/PyNormProps.v
theories/PyIterModel.v
theories/PyIterSpec.v
theories/PyIterProps.v
theories/PyRefModel.v
theories/PyRefSpec.v
theories/PyRefProps.v
theories/PyLockModel.v
theories/PyLockSpec.v
theories/PyLockProofs.v
theories/PyLockProps.v
theories/PySettingsModel.v
theories/PySettingsSpec.v
theories/PySettingsProofs.v
theories/PySettingsProps.v
theories/PyShareModel.v
theories/PyShareSpec.v
theories/PyShareProofs.v
theories/PyShareProps.v
theories/PyInPlaceProps.v
theories/NormPanicSpec.v
theories/NormPanicProofs.v
theories/NormPanicProps.v
theories/CacheTrainProps.v
theories/WordTripModel.v
theories/WordTripSpec.v
theories/WordTripProofs.v
theories/WordTripProps.v
theories/CharTripModel.v
theories/CharTripSpec.v
theories/CharTripProofs.v
theories/CharTripProps.v
theories/VisualModel.v
theories/VisualSpec.v
theories/VisualProofs.v
theories/VisualEncModel.v
theories/VisualEncProofs.v
theories/VisualProps.v
theories/PyReprModel.v
theories/PyReprSpec.v
theories/PyReprProofs.v
theories/PyReprReadProofs.v
theories/PyReprProps.v
theories/NodeModel.v
theories/NodeSpec.v
theories/NodeProps.v
theories/NodeTaskModel.v
theories/NodeTaskSpec.v
theories/NodeTaskProofs.v
theories/NodeTaskProps.v
theories/ImplModel.v
theories/ImplSpec.v
theories/ImplProofs.v
theories/ImplProps.v
theories/ImplBertModel.v
theories/ImplBertSpec.v
theories/ImplBertProofs.v
theories/ImplBertProps.v
theories/ImplCharModel.v
theories/ImplCharSpec.v
theories/ImplCharProofs.v
theories/ImplCharProps.v
theories/ImplSpmModel.v
theories/ImplSpmSpec.v
theories/ImplSpmProofs.v
theories/ImplSpmProps.v
theories/FixFileSpec.v
theories/FixFileProofs.v
theories/FixFileProps.v
theories/ImplTrainSpec.v
theories/ImplTrainProps.v
theories/PyModelModel.v
theories/PyModelSpec.v
theories/PyModelProofs.v
theories/PyModelProps.v
theories/PyEncModel.v
theories/PyEncSpec.v
theories/PyEncProofs.v
theories/PyEncProps.v
theories/PyTrainerModel.v
theories/PyTrainerSpec.v
theories/PyTrainerProofs.v
theories/PyTrainerProofs2.v
theories/PyTrainerProps.v
theories/PyUniTrainerModel.v
theories/PyUniTrainerSpec.v
theories/PyUniTrainerProofs.v
theories/PyUniTrainerProps.v
theories/Audit.v
