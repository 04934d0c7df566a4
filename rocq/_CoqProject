-Q theories Verif
theories/Base.v
theories/BaseFacts.v
theories/NdModel.v
theories/NdFacts.v
theories/RSum.v
theories/LinAlgModel.v
theories/LinAlgSpec.v
theories/GPModel.v
theories/NoiseModel.v
theories/LinAlgFacts.v
theories/GPProofs.v
theories/NoiseProofs.v
theories/MuyGPSModel.v
theories/GPSpec.v
theories/MuyGPSProofs.v
theories/Gauss.v
theories/GPTheorems.v
theories/ScaleSpec.v
theories/ScaleProofs.v
theories/DownSampleProofs.v
theories/FastProofs.v
theories/WellPosedProofs.v
theories/GPExamples.v
theories/TensorModel.v
theories/TensorSpec.v
theories/TensorProofs.v
theories/TensorLemmas.v
theories/TensorProps.v
theories/HyperModel.v
theories/HyperSpec.v
theories/HyperProofs.v
theories/NamedModel.v
theories/NamedSpec.v
theories/NamedProofs.v
theories/KernelModel.v
theories/KernelSpec.v
theories/KernelProofs.v
theories/HyperLemmas.v
theories/KernelLemmas.v
theories/KernelCases.v
theories/KernelProps.v
theories/HyperProps.v
theories/GPProps.v
theories/ScaleProps.v
theories/LossModel.v
theories/LossSpec.v
theories/LossProofs.v
theories/ChassisModel.v
theories/ChassisSpec.v
theories/ChassisProofs.v
theories/ObjectiveProofs.v
theories/LossLemmas.v
theories/LossProps.v
theories/ChassisLemmas.v
theories/ChassisProps.v
theories/NeighborsModel.v
theories/NeighborsSpec.v
theories/NeighborsProofs.v
theories/BatchProofs.v
theories/BatchLemmas.v
theories/NeighborsProps.v
theories/MpiModel.v
theories/MpiSem.v
theories/MpiProofs.v
theories/ChunkProofs.v
theories/MpiSpec.v
theories/MpiLemmas.v
theories/MpiReduce.v
theories/MpiProps.v
theories/CongProofs.v
theories/MultiModel.v
theories/MultiSpec.v
theories/MultiProofs.v
theories/MultiLemmas.v
theories/MultiProps.v
theories/FlowModel.v
theories/FlowSpec.v
theories/FlowProofs.v
theories/FlowLemmas.v
theories/FlowProps.v
theories/ClassifyModel.v
theories/ClassifySpec.v
theories/ClassifyProofs.v
theories/ClassifyLemmas.v
theories/UqProofs.v
theories/DriverModel.v
theories/DriverProofs.v
theories/ClassifyProps.v
theories/ShearModel.v
theories/ShearSpec.v
theories/ShearFlowSpec.v
theories/ShearProofs.v
theories/ShearLemmas.v
theories/ShearSmooth.v
theories/ShearPsd.v
theories/ShearGram.v
theories/ShearFlow.v
theories/ShearEdge.v
theories/ShearProps.v
theories/ConfigModel.v
theories/ConfigSpec.v
theories/ConfigProofs.v
theories/ConfigProps.v
theories/EqModel.v
theories/EqSpec.v
theories/EqProofs.v
theories/EqProps.v
theories/MemModel.v
theories/MemSpec.v
theories/MemProofs.v
theories/MemLemmas.v
theories/MemProps.v
theories/AliasModel.v
theories/AliasSpec.v
theories/AliasProofs.v
theories/AliasProofs2.v
theories/AliasProps.v
theories/PointwiseSpec.v
theories/PointwiseProofs.v
theories/HierModel.v
theories/HierSpec.v
theories/HierProofs.v
theories/HierProps.v
theories/MixtureProofs.v
theories/MaternPsd.v
theories/GaussPd.v
theories/KernelPd.v
theories/LibSpec.v
theories/LibProofs.v
theories/LibProps.v
theories/BackendModel.v
theories/BackendProofs.v
theories/BackendProofs2.v
theories/BackendProps.v
theories/DeepModel.v
theories/DeepSpec.v
theories/DeepProofs.v
theories/DeepLemmas.v
theories/DeepLemmas2.v
theories/DeepProps.v
theories/MatLossProofs.v
theories/WorkModel.v
theories/WorkSpec.v
theories/WorkProofs.v
theories/WorkLemmas.v
theories/WorkProps.v
theories/TrainModel.v
theories/TrainSpec.v
theories/TrainProofs.v
theories/TrainProofs2.v
theories/TrainProofs3.v
theories/TrainProps.v
theories/UqWorkModel.v
theories/UqWorkSpec.v
theories/UqWorkProofs.v
theories/UqWorkProps.v
theories/FastWorkModel.v
theories/FastWorkProofs.v
theories/FastWorkProps.v
theories/ClassTrainModel.v
theories/ClassTrainSpec.v
theories/ClassTrainProofs.v
theories/ClassTrainProps.v
theories/MultiTrainModel.v
theories/MultiTrainSpec.v
theories/MultiTrainProofs.v
theories/MultiTrainProofs2.v
theories/MultiTrainProofs3.v
theories/MultiTrainProofs4.v
theories/MultiTrainProofs5.v
theories/MultiTrainProofs6.v
theories/MultiTrainProps.v
theories/ShearTrainModel.v
theories/ShearTrainSpec.v
theories/ShearTrainProofs.v
theories/ShearTrainProofs2.v
theories/ShearTrainProps.v
theories/BestSpec.v
theories/BestProofs.v
theories/BestGram.v
theories/BestProps.v
theories/SimSpec.v
theories/SimProofs.v
theories/SimProps.v
theories/UnitsSpec.v
theories/UnitsProofs.v
theories/UnitsProofs2.v
theories/UnitsProofs3.v
theories/UnitsProps.v
theories/LocalSpec.v
theories/LocalProofs.v
theories/LocalProps.v
theories/SimTrainSpec.v
theories/SimTrainProofs.v
theories/ExactLooSpec.v
theories/ExactLooProofs.v
theories/ExactLooProps.v
theories/SimTrainProofs2.v
theories/SimTrainProps.v
theories/RelabelSpec.v
theories/RelabelProofs.v
theories/RelabelProps.v
theories/ColumnsSpec.v
theories/ColumnsProofs.v
theories/ColumnsProps.v
theories/OrderSpec.v
theories/OrderProofs.v
theories/OrderProofs2.v
theories/RelabelProofs2.v
theories/OrderProps.v
theories/FarSpec.v
theories/FarProofs.v
theories/FarProps.v
theories/SmoothSpec.v
theories/SmoothProofs.v
theories/SmoothProps.v
theories/ContSpec.v
theories/ContProofs.v
theories/ContProofs2.v
theories/ContProps.v
theories/RoundSpec.v
theories/RoundProofs.v
theories/RoundProps.v
theories/Cont3Spec.v
theories/Cont3Proofs.v
theories/Cont3Props.v
theories/CalibModel.v
theories/CalibSpec.v
theories/CalibProofs.v
theories/CalibProps.v
theories/BenchModel.v
theories/BenchSpec.v
theories/BenchChol.v
theories/BenchProofs.v
theories/BenchProps.v
theories/SamplerModel.v
theories/SamplerSpec.v
theories/SamplerProofs.v
theories/SamplerProps.v
theories/DenseShearModel.v
theories/DenseShearSpec.v
theories/DenseShearProofs.v
theories/DenseShearProofs2.v
theories/DenseShearProofs3.v
theories/DenseShearProps.v
theories/UtilsModel.v
theories/UtilsSpec.v
theories/UtilsProofs.v
theories/UtilsProofs2.v
theories/UtilsProps.v
theories/FairSpec.v
theories/FairProofs.v
theories/FairProps.v
theories/DupSpec.v
theories/DupProofs.v
theories/DupProps.v
theories/SimplerSpec.v
theories/SimplerProofs.v
theories/SimplerProofs2.v
theories/SimplerProps.v
theories/ExpoSpec.v
theories/ExpoProofs.v
theories/ExpoProofs2.v
theories/ExpoProps.v
theories/NativeSpec.v
theories/NativeProofs.v
theories/NativeProofs2.v
theories/NativeProps.v
theories/CoincideSpec.v
theories/CoincideProofs.v
theories/CoincideProofs2.v
theories/CoincideProofs3.v
theories/CoincideProps.v
theories/SkySpec.v
theories/SkyProofs.v
theories/SkyProofs2.v
theories/SkyProofs3.v
theories/SkyProps.v
theories/StepSpec.v
theories/StepProofs.v
theories/StepProps.v
theories/LongSpec.v
theories/LongProofs.v
theories/LongProps.v
theories/RangeSpec.v
theories/RangeProofs.v
theories/RangeProofs2.v
theories/RangeProps.v
theories/ShearBestSpec.v
theories/ShearBestProofs.v
theories/ShearBestProofs2.v
theories/ShearBestProofs3.v
theories/ShearBestProps.v
theories/FitSpec.v
theories/FitProofs.v
theories/FitProofs2.v
theories/FitProofs3.v
theories/FitProofs4.v
theories/FitProps.v
theories/LimitProofs.v
theories/LimitProps.v
theories/MultiwiseProofs.v
theories/MultiwiseProps.v
theories/NearCorrProofs.v
theories/NearCorrProps.v
theories/OriginSpec.v
theories/OriginProofs.v
theories/OriginProps.v
theories/ShearContSpec.v
theories/ShearContProofs.v
theories/ShearContProofs2.v
theories/ShearContProps.v
theories/ShearFarProofs.v
theories/ShearFarProps.v
theories/ShearFarProofs2.v
theories/ShearNoisyProps.v
theories/ShearFairSpec.v
theories/ShearFairProofs.v
theories/ShearFairProps.v
theories/MultiOrderProofs.v
theories/MultiOrderProps.v
theories/MultiLimitProofs.v
theories/MultiLimitProps.v
