-Q theories Verif
theories/Model/Base.v
theories/Model/F32.v
theories/Model/BitStream.v
theories/Model/NibbleList.v
theories/Model/BitVec.v
theories/Model/CircularStack.v
theories/Model/Noise.v
theories/Model/Parabola.v
theories/Model/Sample.v
theories/Model/Frame.v
theories/Model/Adhoc.v
theories/Model/RingBuffer.v
theories/Model/LinkedList.v
theories/Model/LruCache.v
theories/Model/Bincode.v
theories/Model/Wav.v
theories/Model/Signal.v
theories/Model/Cli.v
theories/Model/CliFiles.v
theories/Model/CliArgs.v
theories/Model/CliIO.v
theories/Model/Resource.v
theories/Model/Layout.v
theories/Model/Narrow.v
theories/Model/Steps.v
theories/Model/Allocs.v
theories/Model/CollectionsBincode.v
theories/Spec/FileIO.v
theories/Spec/Tape.v
theories/Spec/Streams.v
theories/Proofs/IOFacts.v
theories/Proofs/ResourceFacts.v
theories/Proofs/BaseFacts.v
theories/Spec/Bits.v
theories/Proofs/BitStreamFacts.v
theories/Proofs/BitLog.v
theories/Proofs/Rice.v
theories/Spec/StreamOps.v
theories/Proofs/StreamOpsFacts.v
theories/Properties/BitStreamProps.v
theories/Proofs/Containers.v
theories/Properties/ContainerProps.v
theories/Proofs/Headers.v
theories/Properties/HeaderProps.v
theories/Spec/Codec.v
theories/Proofs/FrameFacts.v
theories/Spec/Recording.v
theories/Proofs/EncodeFacts.v
theories/Proofs/DecodeFacts.v
theories/Proofs/FloatFacts.v
theories/Proofs/Predict.v
theories/Proofs/RoundTrip.v
theories/Proofs/SignalFacts.v
theories/Proofs/Requantise.v
theories/Spec/Frames.v
theories/Proofs/FrameLaws.v
theories/Proofs/AnyState.v
theories/Properties/Demo.v
theories/Properties/RoundTripProps.v
theories/Properties/SampleProps.v
theories/Properties/NoiseProps.v
theories/Properties/PeriodProps.v
theories/Properties/FrameProps.v
theories/Properties/CallProps.v
theories/Spec/Files.v
theories/Proofs/FileFacts.v
theories/Proofs/TypeFacts.v
theories/Proofs/Replica.v
theories/Properties/FileProps.v
theories/Proofs/Memory.v
theories/Spec/Seeking.v
theories/Proofs/SeekFacts.v
theories/Proofs/SeekRecording.v
theories/Proofs/SeekTarget.v
theories/Properties/SeekProps.v
theories/Spec/Collections.v
theories/Proofs/RingFacts.v
theories/Proofs/ListFacts.v
theories/Proofs/LruFacts.v
theories/Properties/CollectionProps.v
theories/Spec/Wave.v
theories/Proofs/WavFacts.v
theories/Proofs/WavSeek.v
theories/Proofs/WavFile.v
theories/Proofs/Chunks.v
theories/Properties/WavProps.v
theories/Properties/RequantiseProps.v
theories/Proofs/ConvolveFacts.v
theories/Properties/SignalProps.v
theories/Proofs/Oversize.v
theories/Properties/LimitProps.v
theories/Proofs/CliFacts.v
theories/Properties/CliProps.v
theories/Spec/Batch.v
theories/Proofs/BatchFacts.v
theories/Properties/BatchProps.v
theories/Spec/Damage.v
theories/Proofs/DamageFacts.v
theories/Proofs/DamagePair.v
theories/Proofs/DamageFile.v
theories/Proofs/DamageRecording.v
theories/Properties/DamageProps.v
theories/Spec/Tracks.v
theories/Spec/Targets.v
theories/Proofs/TrackFacts.v
theories/Properties/TrackProps.v
theories/Proofs/Terminates.v
theories/Proofs/NarrowFacts.v
theories/Proofs/EnoughMemory.v
theories/Properties/TerminationProps.v
theories/Properties/LoudnessProps.v
theories/Properties/SizeProps.v
theories/Properties/LevelSizeProps.v
theories/Properties/PlaySaveProps.v
theories/Properties/GenerationProps.v
theories/Properties/OptionProps.v
theories/Properties/InterruptProps.v
theories/Properties/TapeProps.v
theories/Properties/RateProps.v
theories/Properties/SettingsProps.v
theories/Proofs/Mirror.v
theories/Properties/MirrorProps.v
theories/Properties/StreamProps.v
theories/Properties/MemoryProps.v
theories/Properties/CollectionFileProps.v
theories/Properties/TargetProps.v
theories/Properties/SilenceProps.v
theories/Spec/Levels.v
theories/Spec/Speed.v
theories/Spec/Allocation.v
theories/Proofs/LevelFacts.v
theories/Proofs/StepFacts.v
theories/Properties/LevelProps.v
theories/Properties/SpeedProps.v
theories/Proofs/AllocFacts.v
theories/Proofs/AllocBounds.v
theories/Properties/AllocationProps.v
theories/Spec/Bombs.v
theories/Proofs/BombFacts.v
theories/Proofs/BombTool.v
theories/Properties/BombProps.v
theories/Spec/Convertible.v
theories/Model/Examples.v
theories/Model/InfoBytes.v
theories/Properties/ConvertibleProps.v
theories/Properties/ExampleProps.v
theories/Properties/InfoBytesProps.v
theories/Spec/Player.v
theories/Properties/PlayerProps.v
theories/Model/Resample.v
theories/Spec/Resample.v
theories/Proofs/ResampleFacts.v
theories/Properties/ResampleProps.v
theories/Properties/MseProps.v
theories/Spec/Tables.v
theories/Proofs/TableFacts.v
theories/Proofs/TableTool.v
theories/Properties/TableProps.v
theories/Model/Gaussian.v
theories/Spec/Gaussian.v
theories/Properties/GaussianProps.v
theories/Model/ListHandles.v
theories/Proofs/HandleFacts.v
theories/Properties/HandleProps.v
theories/Spec/Unicode.v
theories/Proofs/UnicodeFacts.v
theories/Spec/AdhocFile.v
theories/Proofs/FormatFacts.v
theories/Properties/FormatProps.v
theories/Model/RawIndex.v
theories/Spec/RawIndex.v
theories/Properties/RawIndexProps.v
theories/Spec/Profiles.v
theories/Proofs/ProfileFacts.v
theories/Properties/ProfileProps.v
theories/Proofs/SeekPrecision.v
theories/Properties/PrecisionProps.v
theories/Properties/CacheMemoryProps.v
