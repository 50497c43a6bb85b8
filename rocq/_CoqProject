-Q theories Verif
theories/Base.v
theories/HilbertModel.v
theories/HilbertProofs.v
theories/DomainModel.v
theories/DomainSpec.v
theories/DomainProofs.v
theories/HilbertDomainProofs.v
theories/DomainBoxProofs.v
theories/DomainProps.v
theories/MpiModel.v
theories/MpiProofs.v
theories/BalanceModel.v
theories/BalanceSpec.v
theories/BalanceMapProofs.v
theories/BalanceMoveProofs.v
theories/BalanceCommProofs.v
theories/BalanceProps.v
theories/Arr.v
theories/IndexerModel.v
theories/IndexerProofs.v
theories/SortModel.v
theories/SortSpec.v
theories/SortProofs.v
theories/CollisionModel.v
theories/CollisionSpec.v
theories/CollisionProofs.v
theories/SortProps.v
theories/UidModel.v
theories/UidProofs.v
theories/RangeModel.v
theories/RangeProofs.v
theories/StorageModel.v
theories/StorageProofs.v
theories/BintreeModel.v
theories/BintreeProofs.v
theories/BitfieldModel.v
theories/BitfieldProofs.v
theories/UtilProps.v
theories/OutputModel.v
theories/OutputProofs.v
theories/LoopModel.v
theories/LoopSpec.v
theories/LoopProofs.v
theories/LoopClockProofs.v
theories/CourantProofs.v
theories/LoopProps.v
theories/PushModel.v
theories/PushSpec.v
theories/PushProofs.v
theories/FieldModel.v
theories/FieldSpec.v
theories/FieldProofs.v
theories/FieldRunProofs.v
theories/RSum.v
theories/MarderProofs.v
theories/FieldProps.v
theories/DepositModel.v
theories/DepositSpec.v
theories/DepositProofs.v
theories/CurrentModel.v
theories/CurrentProofs.v
theories/CurrentVar1Proofs.v
theories/CurrentRefute.v
theories/DepositProps.v
theories/EsirkModel.v
theories/EsirkProofs.v
theories/EsirkProps.v
theories/InterpModel.v
theories/InterpProps.v
theories/BndPrtModel.v
theories/BndPrtSpec.v
theories/BndPrtProofs.v
theories/BndPrtExact.v
theories/BndPrtFloat.v
theories/BndPrtProps.v
theories/DdcPrtModel.v
theories/DdcPrtSpec.v
theories/DdcPrtProofs.v
theories/DdcPrtGlobalSpec.v
theories/DdcPrtGlobal.v
theories/DdcPrtProps.v
theories/BinColModel.v
theories/BinColProofs.v
theories/BinColProps.v
theories/SetupModel.v
theories/SetupSpec.v
theories/SetupProofs.v
theories/SetupProps.v
theories/TotalSpec.v
theories/TotalProofs.v
theories/TotalProps.v
theories/GhostModel.v
theories/GhostSpec.v
theories/GhostProofs.v
theories/GhostProps.v
theories/GaussModel.v
theories/GaussSpec.v
theories/GaussProofs.v
theories/GaussProps.v
theories/RngModel.v
theories/RngSpec.v
theories/RngProofs.v
theories/RngProps.v
theories/InputModel.v
theories/InputSpec.v
theories/InputProofs.v
theories/InputProps.v
theories/RestartModel.v
theories/RestartSpec.v
theories/RestartProofs.v
theories/RestartProps.v
theories/ReflectModel.v
theories/ReflectSpec.v
theories/ReflectProofs.v
theories/ReflectProps.v
theories/EnergyModel.v
theories/EnergySpec.v
theories/EnergyProofs.v
theories/EnergyProps.v
theories/WallModel.v
theories/WallSpec.v
theories/WallProofs.v
theories/WallProps.v
theories/RadiateProofs.v
theories/RadiateProps.v
theories/OutPrtModel.v
theories/OutPrtSpec.v
theories/OutPrtSortProofs.v
theories/OutPrtLocalProofs.v
theories/PatchListProofs.v
theories/OutPrtProofs.v
theories/OutPrtProps.v
theories/OpenGhostProps.v
theories/RngSupportProps.v
theories/InjectModel.v
theories/InjectSpec.v
theories/InjectProofs.v
theories/InjectProps.v
theories/MomentModel.v
theories/MomentSpec.v
theories/MomentProofs.v
theories/MomentProps.v
theories/CudaPrtModel.v
theories/CudaPrtSpec.v
theories/CudaPrtProofs.v
theories/CudaPrtProps.v
theories/AvgSpec.v
theories/AvgProofs.v
theories/CudaCurrModel.v
theories/CudaCurrProofs.v
theories/AvgProps.v
theories/CudaLaunchModel.v
theories/CudaLaunchSpec.v
theories/CudaLaunchProofs.v
theories/CudaSharedProofs.v
theories/CudaPushProofs.v
theories/CudaLaunchProps.v
theories/CudaCollModel.v
theories/CudaCollSpec.v
theories/CudaCollProofs.v
theories/CudaCollRunProofs.v
theories/CudaCollProps.v
theories/CudaMomModel.v
theories/CudaMomSpec.v
theories/CudaMomProofs.v
theories/CudaMomProps.v
theories/CudaBndModel.v
theories/CudaBndSpec.v
theories/CudaBndProofs.v
theories/CudaBndProps.v
theories/CudaFldModel.v
theories/CudaFldSpec.v
theories/CudaFldProofs.v
theories/CudaFldProps.v
theories/CudaPushFldModel.v
theories/CudaPushFldSpec.v
theories/CudaPushFldProofs.v
theories/CudaPushFldProps.v
theories/HeatModel.v
theories/HeatSpec.v
theories/HeatProofs.v
theories/HeatProps.v
theories/CudaGaussModel.v
theories/CudaGaussSpec.v
theories/CudaGaussProofs.v
theories/CudaGaussProps.v
theories/SetupFldModel.v
theories/SetupFldSpec.v
theories/SetupFldProofs.v
theories/SetupFldRunProofs.v
theories/SetupFldProps.v
theories/TableModel.v
theories/TableSpec.v
theories/TableProofs.v
theories/TableProps.v
theories/BgkModel.v
theories/BgkSpec.v
theories/BgkProofs.v
theories/BgkProps.v
theories/SimpleModel.v
theories/SimpleSpec.v
theories/SimpleProofs.v
theories/SimpleProps.v
theories/CrdsModel.v
theories/CrdsSpec.v
theories/CrdsProofs.v
theories/CrdsProps.v
