-Q theories Verif
theories/Cpu/CpuDecode.v
theories/Cpu/CpuFacts.v
theories/Cpu/CpuModel.v
theories/Cpu/CpuProps.v
theories/Cpu/CpuResults.v
theories/Cpu/CpuSpec.v
theories/Cpu/CpuStep.v
theories/Generation/ListModel.v
theories/Generation/ListProps.v
theories/Generation/LoadModel.v
theories/Generation/LoadProps.v
theories/Generation/SegmentsModel.v
theories/Generation/SegmentsProps.v
theories/Generation/ValueProps.v
theories/Keccak/KeccakFacts.v
theories/Keccak/KeccakGaps.v
theories/Keccak/KeccakGen.v
theories/Keccak/KeccakModel.v
theories/Keccak/KeccakProps.v
theories/Keccak/KeccakSound.v
theories/Keccak/KeccakSpec.v
theories/Keccak/KeccakTable.v
theories/Keccak/SpongeFacts.v
theories/Keccak/SpongeGaps.v
theories/Keccak/SpongeGen.v
theories/Keccak/SpongeModel.v
theories/Keccak/SpongeOps.v
theories/Keccak/SpongeProps.v
theories/Keccak/SpongeSound.v
theories/Keccak/SpongeSwap.v
theories/Keccak/SpongeTable.v
theories/Kernel/AsmMacro.v
theories/Kernel/AsmModel.v
theories/Kernel/AsmProps.v
theories/Kernel/OptModel.v
theories/Kernel/OptProps.v
theories/Kernel/OptRules.v
theories/Kernel/OptSound.v
theories/Kernel/OptSpec.v
theories/Kernel/PermModel.v
theories/Kernel/PermProps.v
theories/Kernel/StackModel.v
theories/Kernel/StackProps.v
theories/Mpt/CacheModel.v
theories/Mpt/CacheProofs.v
theories/Mpt/DiffModel.v
theories/Mpt/DiffProofs.v
theories/Mpt/DiffProps.v
theories/Mpt/FixedOpsProofs.v
theories/Mpt/HashModel.v
theories/Mpt/HexPrefixProofs.v
theories/Mpt/NibblesModel.v
theories/Mpt/NibblesProofs.v
theories/Mpt/NibblesProps.v
theories/Mpt/PartialProofs.v
theories/Mpt/PartialProps.v
theories/Mpt/PruneProofs.v
theories/Mpt/PruneSpec.v
theories/Mpt/QueryModel.v
theories/Mpt/QueryProofs.v
theories/Mpt/QueryProps.v
theories/Mpt/QuerySpec.v
theories/Mpt/RlpProofs.v
theories/Mpt/SubsetModel.v
theories/Mpt/SubsetProofs.v
theories/Mpt/TrieFacts.v
theories/Mpt/TrieHistory.v
theories/Mpt/TrieIterProofs.v
theories/Mpt/TrieModel.v
theories/Mpt/TrieOpsProofs.v
theories/Mpt/TrieProps.v
theories/Mpt/TrieSpec.v
theories/Mpt/YellowProofs.v
theories/Mpt/YellowProps.v
theories/Mpt/YellowSpec.v
theories/Recursion/AggregateExamples.v
theories/Recursion/AggregateLemmas.v
theories/Recursion/AggregateModel.v
theories/Recursion/AggregateProps.v
theories/Recursion/AggregateSpec.v
theories/Recursion/ProverModel.v
theories/Recursion/ProverProps.v
theories/Smt/BitsModel.v
theories/Smt/BitsProofs.v
theories/Smt/CodeModel.v
theories/Smt/CodeProofs.v
theories/Smt/CodeSpec.v
theories/Smt/KeyProofs.v
theories/Smt/SmtBuildProofs.v
theories/Smt/SmtHistory.v
theories/Smt/SmtModel.v
theories/Smt/SmtPartialProofs.v
theories/Smt/SmtProofs.v
theories/Smt/SmtProps.v
theories/Smt/SmtSerProofs.v
theories/Smt/SmtSetProofs.v
theories/Smt/SmtSpec.v
theories/Stark/ArithComplete.v
theories/Stark/ArithEmbed.v
theories/Stark/ArithGen.v
theories/Stark/ArithGenByte.v
theories/Stark/ArithGenMod.v
theories/Stark/ArithGenRows.v
theories/Stark/ArithModel.v
theories/Stark/ArithProps.v
theories/Stark/ArithSound.v
theories/Stark/ArithSpec.v
theories/Stark/ArithTrace.v
theories/Stark/BytePackModel.v
theories/Stark/BytePackProps.v
theories/Stark/Field.v
theories/Stark/LogicModel.v
theories/Stark/LogicProps.v
theories/Stark/Lookup.v
theories/Stark/MemCheck.v
theories/Stark/MemCircuit.v
theories/Stark/MemModel.v
theories/Stark/MemProps.v
theories/Stark/MemSound.v
theories/Stark/MemSpec.v
theories/Stark/PolyProofs.v
theories/Tower/FieldModel.v
theories/Tower/FieldProps.v
theories/Tower/TowerModel.v
theories/Tower/TowerProps.v
theories/Trace/BatchInv.v
theories/Trace/BatchModel.v
theories/Trace/BatchProps.v
theories/Trace/EffectProps.v
theories/Trace/Type1BlockModel.v
theories/Trace/Type1BlockProps.v
theories/Trace/Type1MapProps.v
theories/Trace/Type1Model.v
theories/Trace/Type1Props.v
theories/Trace/Type1WorldModel.v
theories/Trace/Type1WorldProps.v
theories/Trace/Type2Maps.v
theories/Trace/Type2Model.v
theories/Trace/Type2Props.v
theories/Trace/WireModel.v
theories/Trace/WireProps.v
theories/Witness/EvmProps.v
theories/Witness/EvmSpec.v
theories/Witness/KernelExamples.v
theories/Witness/KernelProps.v
theories/Witness/MachineControl.v
theories/Witness/MachineExamples.v
theories/Witness/MachineLemmas.v
theories/Witness/MachineLog.v
theories/Witness/MachineModel.v
theories/Witness/MachineProps.v
theories/Witness/MachineRun.v
theories/Witness/MachineSem.v
theories/Witness/MachineSpec.v
theories/Witness/MachineStep.v
theories/Witness/MachineView.v
theories/Witness/MemoryModel.v
theories/Witness/MemoryProps.v
theories/Witness/ObserveModel.v
theories/Zero/CircuitModel.v
theories/Zero/CircuitProps.v
theories/Zero/HashesModel.v
theories/Zero/HashesProps.v
theories/Zero/IntervalModel.v
theories/Zero/IntervalProps.v
theories/Zero/ParseProps.v
theories/Zero/PipelineModel.v
theories/Zero/PipelineProps.v
