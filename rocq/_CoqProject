-Q theories Verif
theories/Base.v
theories/WriterModel.v
theories/LoaderModel.v
theories/GraphModel.v
theories/GraphSpec.v
theories/WriterProofs.v
theories/LoaderProofs.v
theories/QueryProofs.v
theories/GraphProofs.v
theories/ConvertProofs.v
theories/AnswerProofs.v
theories/Float32.v
theories/Demo.v
theories/GraphProps.v
theories/FeatureModel.v
theories/FeatureSpec.v
theories/FeatureProofs.v
theories/SearchProofs.v
theories/TemporalProofs.v
theories/EdgeFeatureProofs.v
theories/EdgeTemporalProofs.v
theories/StringProofs.v
theories/TemporalStringProofs.v
theories/SparseProofs.v
theories/FeatureProps.v
theories/NewestProofs.v
theories/NewestProps.v
theories/CountProofs.v
theories/LastNModel.v
theories/LastNProofs.v
theories/TimeProps.v
theories/MetaModel.v
theories/MetaSpec.v
theories/MetaProofs.v
theories/MergeProofs.v
theories/MetaProps.v
theories/Dist.v
theories/AliasModel.v
theories/AliasProofs.v
theories/AliasFileProofs.v
theories/ReservoirModel.v
theories/ReservoirProofs.v
theories/ShardProofs.v
theories/SamplingProps.v
theories/SamplerModel.v
theories/SamplerProofs.v
theories/MultinomialProofs.v
theories/OccurrenceProofs.v
theories/ShareProofs.v
theories/SamplerProps.v
theories/NeighborModel.v
theories/NeighborProofs.v
theories/UniformProofs.v
theories/WeightedProofs.v
theories/WeightedLaw.v
theories/WeightedGraph.v
theories/NeighborProps.v
theories/ServerModel.v
theories/ServerProofs.v
theories/ServerFeatureProofs.v
theories/ServerStringProofs.v
theories/ServerProps.v
theories/IterModel.v
theories/IterProofs.v
theories/IterProps.v
theories/GraphOpsModel.v
theories/GraphOpsProofs.v
theories/GraphOpsProps.v
theories/SetupModel.v
theories/SetupProofs.v
theories/SetupProps.v
theories/DecoderModel.v
theories/DecoderProofs.v
theories/DecoderProps.v
theories/XoroModel.v
theories/XoroProofs.v
theories/XoroProps.v
theories/StorageModel.v
theories/StorageProofs.v
theories/StorageProps.v
theories/DMergeModel.v
theories/DMergeProofs.v
theories/DSampleProofs.v
theories/DMergeProps.v
theories/WalkModel.v
theories/WalkProofs.v
theories/WalkGraphProofs.v
theories/WalkOrderProofs.v
theories/WalkProps.v
theories/PprModel.v
theories/PprProofs.v
theories/PprBest.v
theories/PprGraphProofs.v
theories/PprProps.v
theories/SyncModel.v
theories/SyncProofs.v
theories/SyncProps.v
theories/CallModel.v
theories/CallProofs.v
theories/CallProps.v
theories/PrefetchModel.v
theories/PrefetchProofs.v
theories/PrefetchProps.v
theories/ReaderModel.v
theories/ReaderProofs.v
theories/ReaderProps.v
theories/DLastNModel.v
theories/DLastNProofs.v
theories/DLastNProps.v
theories/DUniformModel.v
theories/DUniformProofs.v
theories/DUniformWithProofs.v
theories/DUniformProps.v
theories/ServerEdgeProofs.v
theories/ServerSparseProofs.v
theories/ServerEdgeTextProofs.v
theories/ServerEdgeTextProps.v
theories/HandlerModel.v
theories/HandlerProofs.v
theories/HandlerProps.v
theories/FilesModel.v
theories/FilesProofs.v
theories/FilesProps.v
theories/DispatchModel.v
theories/DispatchProofs.v
theories/DispatchProps.v
theories/UploadModel.v
theories/UploadSpec.v
theories/UploadProofs.v
theories/UploadProps.v
theories/TypedModel.v
theories/TypedSpec.v
theories/TypedProofs.v
theories/TypedProps.v
theories/TrainModel.v
theories/TrainSpec.v
theories/TrainProofs.v
theories/TrainProps.v
theories/BarrierModel.v
theories/BarrierSpec.v
theories/BarrierProofs.v
theories/BarrierProps.v
theories/SageModel.v
theories/SageSpec.v
theories/SageProofs.v
theories/SageProps.v
theories/ForestModel.v
theories/ForestSpec.v
theories/ForestProofs.v
theories/ForestProps.v
theories/DatasetModel.v
theories/DatasetSpec.v
theories/DatasetProofs.v
theories/DatasetProps.v
theories/AttModel.v
theories/AttSpec.v
theories/AttProofs.v
theories/AttProps.v
theories/TfSageModel.v
theories/TfSageSpec.v
theories/TfSageProofs.v
theories/TfSageProps.v
theories/ConvModel.v
theories/ConvSpec.v
theories/ConvProofs.v
theories/ConvProps.v
theories/ScheduleModel.v
theories/ScheduleSpec.v
theories/ScheduleProofs.v
theories/ScheduleProps.v
theories/MetricModel.v
theories/MetricSpec.v
theories/MetricProofs.v
theories/MetricProps.v
theories/TextModel.v
theories/TextSpec.v
theories/TextProofs.v
theories/TextEmbedProofs.v
theories/TextProps.v
theories/RawModel.v
theories/RawSpec.v
theories/RawTextProofs.v
theories/RawProofs.v
theories/RawBuildProofs.v
theories/RawGraphProofs.v
theories/RawLinkProofs.v
theories/RawProps.v
theories/MoocModel.v
theories/MoocSpec.v
theories/MoocProofs.v
theories/MoocReadProofs.v
theories/MoocProps.v
theories/CitationModel.v
theories/CitationSpec.v
theories/CitationProofs.v
theories/CitationSplitProofs.v
theories/CitationProps.v
theories/HdfsModel.v
theories/HdfsSpec.v
theories/HdfsProofs.v
theories/HdfsProps.v
theories/ArgsModel.v
theories/ArgsSpec.v
theories/ArgsProofs.v
theories/ArgsProps.v
theories/EmbedFileModel.v
theories/EmbedFileSpec.v
theories/EmbedFileProofs.v
theories/EmbedFileProps.v
theories/ParallelModel.v
theories/ParallelSpec.v
theories/ParallelProofs.v
theories/ParallelProps.v
theories/FacadeModel.v
theories/FacadeSpec.v
theories/FacadeProofs.v
theories/FacadeProps.v
theories/RetryModel.v
theories/RetrySpec.v
theories/RetryProofs.v
theories/RetryProps.v
theories/TgnModel.v
theories/TgnSpec.v
theories/TgnProofs.v
theories/TgnProps.v
theories/HetModel.v
theories/HetSpec.v
theories/HetProofs.v
theories/HetProps.v
theories/NestModel.v
theories/NestSpec.v
theories/NestProofs.v
theories/NestProps.v
theories/PygModel.v
theories/PygSpec.v
theories/PygProofs.v
theories/PygProps.v
theories/TfLinkModel.v
theories/TfLinkSpec.v
theories/TfLinkProofs.v
theories/TfLinkProps.v
theories/AcademicModel.v
theories/AcademicSpec.v
theories/AcademicProofs.v
theories/AcademicProps.v
theories/BertModel.v
theories/BertSpec.v
theories/BertProofs.v
theories/BertProps.v
theories/CkptModel.v
theories/CkptSpec.v
theories/CkptProofs.v
theories/CkptProps.v
theories/HfModel.v
theories/HfSpec.v
theories/HfProofs.v
theories/HfProps.v
theories/HanModel.v
theories/HanSpec.v
theories/HanProofs.v
theories/HanProps.v
theories/LogModel.v
theories/LogSpec.v
theories/LogProofs.v
theories/LogProps.v
theories/CacheModel.v
theories/CacheSpec.v
theories/CacheProofs.v
theories/CacheProps.v
theories/TfCkptModel.v
theories/TfCkptSpec.v
theories/TfCkptProofs.v
theories/TfCkptProps.v
theories/MigrateModel.v
theories/MigrateSpec.v
theories/MigrateProofs.v
theories/MigrateProps.v
theories/EagerModel.v
theories/EagerSpec.v
theories/EagerProofs.v
theories/EagerProps.v
theories/AmlModel.v
theories/AmlSpec.v
theories/AmlProofs.v
theories/AmlProps.v
theories/EntryModel.v
theories/EntrySpec.v
theories/EntryProofs.v
theories/EntryProps.v
theories/TfLayerModel.v
theories/TfLayerSpec.v
theories/TfLayerProofs.v
theories/TfLayerProps.v
theories/GnnExModel.v
theories/GnnExSpec.v
theories/GnnExProofs.v
theories/GnnExProps.v
theories/SageExModel.v
theories/SageExSpec.v
theories/SageExProofs.v
theories/SageExProps.v
theories/OptModel.v
theories/OptSpec.v
theories/OptProofs.v
theories/OptProps.v
