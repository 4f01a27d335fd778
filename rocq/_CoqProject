-Q theories Verif
theories/Base.v
theories/PyFloat.v
theories/PyFloatProofs.v
theories/Sharder.v
theories/SharderSpec.v
theories/BitrevProofs.v
theories/SharderProofs.v
theories/SharderProofs2.v
theories/SharderProofs3.v
theories/P_Sharder.v
theories/Dataset.v
theories/DatasetProofs.v
theories/Wrap.v
theories/WrapProofs.v
theories/WrapRun.v
theories/WrapTrace.v
theories/WrapSpec.v
theories/SourceProofs.v
theories/WrapLib.v
theories/Wrappers.v
theories/MapModel.v
theories/IdxProofs.v
theories/RepeatProofs.v
theories/EpochizeProofs.v
theories/LimitProofs.v
theories/SimpleProofs.v
theories/MapGenProofs.v
theories/Buffer.v
theories/BufferProofs.v
theories/ShuffleBuffer.v
theories/ShuffleProofs.v
theories/P_Wrappers.v
theories/WorkerConfig.v
theories/WorkerConfigProofs.v
theories/Rng.v
theories/RngProofs.v
theories/WorkerSpec.v
theories/WorkerProofs.v
theories/P_Worker.v
theories/Files.v
theories/FilesProofs.v
theories/P_Files.v
theories/Tar.v
theories/TarSpec.v
theories/TarProofs.v
theories/TarProofs2.v
theories/P_Tar.v
theories/Meta.v
theories/MetaSpec.v
theories/MetaProofs.v
theories/P_Meta.v
theories/Epath.v
theories/EpathProofs.v
theories/P_Epath.v
theories/FieldAccess.v
theories/P_FieldAccess.v
theories/PyFloatMono.v
theories/Prepare.v
theories/P_Prepare.v
theories/Loader.v
theories/LoaderSpec.v
theories/LoaderProofs.v
theories/LoaderSys.v
theories/LoaderSysProofs.v
theories/LoaderGlobal.v
theories/Distributed.v
theories/P_Loader.v
theories/Batch.v
theories/BatchSpec.v
theories/BatchProofs.v
theories/P_Batch.v
theories/GroupBatch.v
theories/GroupBatchProofs.v
theories/GroupBatchSpec.v
theories/GroupBatchProofs2.v
theories/P_GroupBatch.v
theories/SampleLoader.v
theories/SampleLoaderProofs.v
theories/SampleLoaderSpec.v
theories/SampleLoaderProofs2.v
theories/SampleLoaderProofs3.v
theories/P_SampleLoader.v
theories/EndToEndProofs.v
theories/P_EndToEnd.v
theories/Joined.v
theories/JoinedSpec.v
theories/JoinedProofs.v
theories/JoinedProofs2.v
theories/P_Joined.v
theories/SampleLoaderRestore.v
theories/PipelineProofs.v
theories/Pipeline.v
theories/P_Pipeline.v
theories/WebProofs.v
theories/Multi.v
theories/Blend.v
theories/MultiProofs.v
theories/BlendProofs.v
theories/BlendSpec.v
theories/Concat.v
theories/ConcatProofs.v
theories/P_Blend.v
theories/Packing.v
theories/PackingSpec.v
theories/PackingProofs.v
theories/PackingProofs2.v
theories/PackingProofs3.v
theories/P_Packing.v
theories/IterMap.v
theories/IterMapProofs.v
theories/P_IterMap.v
theories/Sha1.v
theories/Stateless.v
theories/StatelessSpec.v
theories/P_Stateless.v
theories/GenBatchProofs.v
theories/ResetProofs.v
theories/TaskEncoder.v
theories/TaskEncoderSpec.v
theories/TaskEncoderProofs.v
theories/P_TaskEncoder.v
theories/LogProofs.v
theories/Load.v
theories/LoadProofs.v
theories/P_Load.v
theories/Tensor.v
theories/TensorSpec.v
theories/TensorProofs.v
theories/P_Tensor.v
theories/EpochLoader.v
theories/EpochLoaderProofs.v
theories/EpochLoaderSpec.v
theories/EpochLoaderOrder.v
theories/SimpleLoader.v
theories/SimpleLoaderSpec.v
theories/SimpleLoaderProofs.v
theories/P_EpochLoader.v
theories/ContentSpec.v
theories/RelabelProofs.v
theories/GenContentProofs.v
theories/P_GenContents.v
theories/GenBatchTrace.v
theories/P_GenBatches.v
theories/Typed.v
theories/TypedSpec.v
theories/TypedProofs.v
theories/TypedRound.v
theories/TypedCallSpec.v
theories/TypedCallProofs.v
theories/P_Typed.v
theories/Transforms.v
theories/TransformsSpec.v
theories/TransformsProofs.v
theories/TransformsMain.v
theories/P_Transforms.v
theories/Override.v
theories/OverrideSpec.v
theories/OverrideProofs.v
theories/OverrideMain.v
theories/P_Override.v
theories/Scaling.v
theories/Lockstep.v
theories/ScalingProofs.v
theories/ScalingMain.v
theories/P_Scaling.v
theories/PackGenTrace.v
theories/P_PackGen.v
theories/ValSpec.v
theories/ValProofs.v
theories/P_Val.v
theories/AnalyzeDebug.v
theories/AnalyzeSpec.v
theories/AnalyzeProofs.v
theories/P_AnalyzeDebug.v
theories/P_TarNames.v
theories/Split.v
theories/SplitSpec.v
theories/SplitProofs.v
theories/P_Splits.v
theories/Errors.v
theories/P_Errors.v
theories/LoadArgs.v
theories/LoadArgsSpec.v
theories/LoadArgsProofs.v
theories/P_LoadArgs.v
theories/UserFunctions.v
theories/P_UserFunctions.v
theories/PrepareRun.v
theories/P_PrepareRun.v
theories/Rewind.v
theories/RewindProofs.v
theories/P_Rewind.v
theories/Config.v
theories/ConfigSpec.v
theories/ConfigProofs.v
theories/ConfigDenote.v
theories/P_Config.v
theories/GcProofs.v
theories/Length.v
theories/LengthSpec.v
theories/LengthProofs.v
theories/LengthProofs2.v
theories/P_Length.v
theories/RandomFns.v
theories/RandomProofs.v
theories/P_Random.v
theories/SaveCheck.v
theories/P_SaveCheck.v
theories/CommandThread.v
theories/P_Commands.v
theories/Augment.v
theories/P_Augment.v
theories/Convert.v
theories/P_Convert.v
theories/Discover.v
theories/P_Discover.v
theories/Info.v
theories/P_Info.v
theories/Preview.v
theories/P_Preview.v
theories/RandomRestore.v
theories/P_RandomRestore.v
theories/ObjectKeys.v
theories/P_ObjectKeys.v
theories/DebugLog.v
theories/P_DebugLog.v
theories/JoinedResume.v
theories/P_JoinedResume.v
theories/Compact.v
theories/P_Compact.v
theories/Remote.v
theories/P_Remote.v
theories/P_TypedMore.v
theories/PathOps.v
theories/P_PathOps.v
