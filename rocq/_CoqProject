-Q theories Verif

theories/AttrModel.v
theories/AttrProofs.v
theories/AttrProps.v
theories/Base.v
theories/BaseLemmas.v
theories/CovAllProofs.v
theories/CovProofs.v
theories/DataFileProofs.v
theories/DataSetModel.v
theories/DataSetProofs.v
theories/DataSetProps.v
theories/DataSetSpec.v
theories/DblLemmas.v
theories/DistanceModel.v
theories/DistanceProofs.v
theories/DistanceProps.v
theories/DistanceSpec.v
theories/EnsembleModel.v
theories/EnsembleProofs.v
theories/EnsembleProps.v
theories/ExperimentModel.v
theories/ExperimentProofs.v
theories/ExperimentProps.v
theories/ExperimentSpec.v
theories/FilterModel.v
theories/FilterProofs.v
theories/FilterProps.v
theories/FilterSpec.v
theories/GaussianModel.v
theories/GaussianProofs.v
theories/GaussianProps.v
theories/GaussianSpec.v
theories/InstanceListModel.v
theories/KernelProofs.v
theories/ListProofs.v
theories/ListProps.v
theories/ListSpec.v
theories/NetModel.v
theories/NetProofs.v
theories/NetProps.v
theories/NetSpec.v
theories/NetTrainProofs.v
theories/NormProofs.v
theories/PartitionModel.v
theories/PartitionProofs.v
theories/PartitionProps.v
theories/PerformanceModel.v
theories/PerformanceProofs.v
theories/PerformanceProps.v
theories/PerformanceSpec.v
theories/SelectionModel.v
theories/SelectionProofs.v
theories/SelectionProps.v
theories/SelectionSpec.v
theories/SerialExamples.v
theories/SerialLoadProofs.v
theories/SerialModel.v
theories/SerialProofs.v
theories/SerialProps.v
theories/SerialSaveProofs.v
theories/SerialSpec.v
theories/SoftGradProofs.v
theories/SoftModel.v
theories/SoftProofs.v
theories/SoftProps.v
theories/SoftSpec.v
theories/SoftTrainProofs.v
theories/SolverInvProofs.v
theories/SolverModel.v
theories/SolverProofs.v
theories/SortLemmas.v
theories/Spec.v
theories/StatModel.v
theories/StatSpec.v
theories/StatTestModel.v
theories/StatTestProofs.v
theories/StatTestProps.v
theories/StatTestSpec.v
theories/SvmModel.v
theories/SvmProofs.v
theories/SvmProps.v
theories/SvmSpec.v
theories/SvmTrainProofs.v
theories/SvmTrainProps.v
theories/SvmTrainSpec.v
theories/TreeGrowProofs.v
theories/TreeModel.v
theories/TreePredictProofs.v
theories/TreeProofs.v
theories/TreeProps.v
theories/TreeSpec.v
theories/DiscrimSpec.v
theories/DiscrimProofs.v
theories/BayesProofs.v
theories/DiscrimProps.v
theories/HeapModel.v
theories/HeapSpec.v
theories/HeapProofs.v
theories/HeapProps.v
theories/TreeProbProps.v
theories/SolverTermProofs.v
theories/SvmTermProps.v
theories/TreeBestSpec.v
theories/TreeBestProofs.v
theories/TreeBestProps.v
theories/SerialTextProps.v
theories/LibModel.v
theories/LibSpec.v
theories/NetMemoryProofs.v
theories/LibProps.v
theories/InvSpec.v
theories/TreeInvProofs.v
theories/TreeInvGrowProofs.v
theories/InvProps.v
theories/ModelInvSpec.v
theories/ModelInvProofs.v
theories/ModelInvDistProofs.v
theories/ModelInvProps.v
theories/ReportModel.v
theories/ReportProps.v
theories/NetSameProofs.v
theories/NetSameProps.v
theories/CoincideProofs.v
theories/CoincideGaussProofs.v
theories/CoincideProps.v
theories/TreeFitProps.v
theories/RenameSpec.v
theories/RenameProofs.v
theories/RenameModelProofs.v
theories/RenameTreeProofs.v
theories/RenameNetProofs.v
theories/RenameLibProofs.v
theories/RenameProps.v
theories/RoundModel.v
theories/RoundSpec.v
theories/RoundProofs.v
theories/RoundPerfProofs.v
theories/RoundFProofs.v
theories/RoundProps.v
theories/RoundDistSpec.v
theories/RoundDistProofs.v
theories/RoundDistProps.v
theories/RoundStatModel.v
theories/RoundStatSpec.v
theories/RoundStatProofs.v
theories/RoundStatProps.v
theories/RoundTreeModel.v
theories/RoundTreeSpec.v
theories/RoundTreeProofs.v
theories/RoundTreeProps.v
theories/RoundStatRootProps.v
theories/MoreProps.v
theories/SerialFailProps.v
theories/FeatOrderSpec.v
theories/FeatOrderProofs.v
theories/FeatOrderDetProofs.v
theories/FeatOrderDiscrimProofs.v
theories/FeatOrderProps.v
theories/ReadySpec.v
theories/ReadyProofs.v
theories/ReadyLibProofs.v
theories/ReadyProps.v
theories/KernelViewSpec.v
theories/KernelViewProofs.v
theories/KernelTrainProofs.v
theories/KernelViewProps.v
theories/SepSpec.v
theories/SepProofs.v
theories/SepProps.v
theories/ConstSpec.v
theories/ConstTreeProofs.v
theories/ConstDistProofs.v
theories/ConstBayesProofs.v
theories/ConstProps.v
theories/StatViewSpec.v
theories/StatViewProofs.v
theories/StatViewProps.v
theories/TestPartsProofs.v
theories/TestPartsProps.v
theories/RepeatSpec.v
theories/RepeatProofs.v
theories/RepeatDistProofs.v
theories/RepeatProps.v
theories/ViewSpec.v
theories/ViewProofs.v
theories/ViewProps.v
theories/NearProofs.v
theories/NearProps.v
theories/UnusedSpec.v
theories/UnusedProofs.v
theories/UnusedProps.v
theories/CopySpec.v
theories/CopyProofs.v
theories/CopyProps.v
theories/DegenSpec.v
theories/DegenProofs.v
theories/DegenProps.v
theories/NarrowSpec.v
theories/NarrowProofs.v
theories/NarrowProps.v
theories/OneListSpec.v
theories/OneListProps.v
theories/EncodeSpec.v
theories/EncodeProofs.v
theories/EncodeProps.v
theories/DomSpec.v
theories/DomProps.v
theories/ReadyTextSpec.v
theories/ReadyTextProofs.v
theories/ReadyTextProps.v
theories/LeakSpec.v
theories/LeakProofs.v
theories/LeakProps.v
theories/NormUseSpec.v
theories/NormUseProofs.v
theories/NormUseProps.v
theories/RegionSpec.v
theories/RegionProofs.v
theories/RegionProps.v
theories/BeyondSpec.v
theories/BeyondProofs.v
theories/BeyondProps.v
theories/RankSpec.v
theories/RankProofs.v
theories/RankProps.v
theories/LeaveOutSpec.v
theories/LeaveOutProofs.v
theories/LeaveOutProps.v
theories/MostModel.v
theories/MostSpec.v
theories/MostProofs.v
theories/MostProps.v
theories/RoundNormModel.v
theories/RoundNormSpec.v
theories/RoundNormProofs.v
theories/RoundNormProps.v
theories/SavedSpec.v
theories/SavedProofs.v
theories/SavedProps.v
theories/FurtherProps.v
theories/ChooseSpec.v
theories/ChooseProofs.v
theories/ChooseProps.v
theories/ApartSpec.v
theories/ApartProofs.v
theories/ApartProps.v
theories/TogetherSpec.v
theories/TogetherProofs.v
theories/TogetherProps.v
theories/UnionProofs.v
theories/UnionProps.v
theories/SameFoldsProofs.v
theories/SameFoldsProps.v
theories/GroupModel.v
theories/GroupProofs.v
theories/GroupProps.v
theories/WithoutProofs.v
theories/WithoutProps.v
theories/SvmChampionProps.v
theories/ShrinkProps.v
theories/ShiftProps.v
theories/ShiftQdaProps.v
