-Q theories Verif
theories/AccModel.v
theories/AccProofs.v
theories/AccProps.v
theories/AccSpec.v
theories/AffMpcModel.v
theories/AffMpcProofs.v
theories/AffMpcProps.v
theories/AffMpcSpec.v
theories/AsgLoop.v
theories/AsgModel.v
theories/AsgProofs.v
theories/AsgProps.v
theories/AsgSpec.v
theories/BenBurger.v
theories/BenModel.v
theories/BenProofs.v
theories/BenProps.v
theories/BenSpec.v
theories/BldBuild.v
theories/BldModel.v
theories/BldProofs.v
theories/BldProps.v
theories/BldShift.v
theories/BldSpec.v
theories/ChkModel.v
theories/ChkProofs.v
theories/ChkProps.v
theories/ChkSpec.v
theories/CknnExample.v
theories/CknnModel.v
theories/CknnProofs.v
theories/CknnProps.v
theories/CknnSpec.v
theories/ColModel.v
theories/ColProofs.v
theories/ColProps.v
theories/ColSpec.v
theories/ConeModel.v
theories/ConeProofs.v
theories/ConeProps.v
theories/ConeSpec.v
theories/CtrModel.v
theories/CtrProofs.v
theories/CtrSpec.v
theories/CtrWin.v
theories/CvModel.v
theories/CvProofs.v
theories/CvProps.v
theories/CvSpec.v
theories/CvWindow.v
theories/DcmModel.v
theories/DcmProofs.v
theories/DcmProps.v
theories/DcmSpec.v
theories/DerExample.v
theories/DerList.v
theories/DerModel.v
theories/DerProofs.v
theories/DerProps.v
theories/DerSpec.v
theories/DictModel.v
theories/DictProofs.v
theories/DictProps.v
theories/DictSpec.v
theories/DistModel.v
theories/DistProofs.v
theories/DistProps.v
theories/DistSpec.v
theories/EdpModel.v
theories/EdpProofs.v
theories/EdpProps.v
theories/EdpSpec.v
theories/EigExample.v
theories/EigModel.v
theories/EigProofs.v
theories/EigProps.v
theories/EigSpec.v
theories/EmbExample.v
theories/EmbModel.v
theories/EmbProofs.v
theories/EmbProps.v
theories/EmbSpec.v
theories/EstModel.v
theories/EstProps.v
theories/EvoModel.v
theories/EvoProj.v
theories/EvoProofs.v
theories/EvoProps.v
theories/EvoSpec.v
theories/FdtModel.v
theories/FdtProps.v
theories/FdtSpec.v
theories/FieldTac.v
theories/GdmdAlign.v
theories/GdmdExample.v
theories/GdmdMain.v
theories/GdmdModel.v
theories/GdmdProofs.v
theories/GdmdProps.v
theories/GdmdSpec.v
theories/GenModel.v
theories/GenProofs.v
theories/GenProps.v
theories/GenSpec.v
theories/JsfModel.v
theories/JsfProofs.v
theories/JsfProps.v
theories/JsfSpec.v
theories/KefModel.v
theories/KefProofs.v
theories/KefProps.v
theories/KefSpec.v
theories/KernExample.v
theories/KernModel.v
theories/KernProofs.v
theories/KernProps.v
theories/KernSpec.v
theories/KgModel.v
theories/KgProofs.v
theories/KgProps.v
theories/KgSpec.v
theories/KoModel.v
theories/KoProps.v
theories/KoSpec.v
theories/KoopModel.v
theories/KoopProofs.v
theories/KoopProps.v
theories/KoopSpec.v
theories/LifeModel.v
theories/LifeProofs.v
theories/LifeSpec.v
theories/LinModel.v
theories/LinProofs.v
theories/LinProps.v
theories/LinSpec.v
theories/LoopModel.v
theories/LoopProofs.v
theories/LoopProps.v
theories/LoopSpec.v
theories/LqrModel.v
theories/LqrProofs.v
theories/LqrProps.v
theories/LqrSpec.v
theories/LrsExample.v
theories/LrsModel.v
theories/LrsProofs.v
theories/LrsProps.v
theories/LrsSpec.v
theories/MahModel.v
theories/MahProofs.v
theories/MahProps.v
theories/MahSpec.v
theories/MetModel.v
theories/MetProofs.v
theories/MetProps.v
theories/MetScore.v
theories/MetSpec.v
theories/MpcModel.v
theories/MpcProofs.v
theories/MpcProps.v
theories/MpcSpec.v
theories/Np.v
theories/NpFacts.v
theories/OnlineModel.v
theories/OnlineProofs.v
theories/OnlineProps.v
theories/OnlineSpec.v
theories/PcaExample.v
theories/PcaModel.v
theories/PcaProofs.v
theories/PcaProps.v
theories/PcaSpec.v
theories/PcmModel.v
theories/PcmProofs.v
theories/PcmProps.v
theories/PcmSpec.v
theories/PostModel.v
theories/PostProofs.v
theories/PostProps.v
theories/PostSpec.v
theories/PredControl.v
theories/PredModel.v
theories/PredProofs.v
theories/PredProps.v
theories/PredSpec.v
theories/PsExample.v
theories/PsHerm.v
theories/PsModel.v
theories/PsProofs.v
theories/PsProps.v
theories/PsSpec.v
theories/PyrExample.v
theories/PyrModel.v
theories/PyrProofs.v
theories/PyrProps.v
theories/PyrSpec.v
theories/QoiModel.v
theories/QoiProofs.v
theories/QoiProps.v
theories/QoiSpec.v
theories/RadModel.v
theories/RadPos.v
theories/RadProofs.v
theories/RadProps.v
theories/RadSpec.v
theories/RbfModel.v
theories/RbfProofs.v
theories/RbfProps.v
theories/RbfSpec.v
theories/ReconEdmd.v
theories/ReconModel.v
theories/ReconProofs.v
theories/ReconProps.v
theories/ReconSpec.v
theories/RedModel.v
theories/RedProofs.v
theories/RedProps.v
theories/RedSpec.v
theories/RefitModel.v
theories/RefitProofs.v
theories/RefitProps.v
theories/RefitSpec.v
theories/ResExample.v
theories/ResModel.v
theories/ResProofs.v
theories/ResProps.v
theories/ResSpec.v
theories/RingTac.v
theories/RkModel.v
theories/RkProofs.v
theories/RkProps.v
theories/RkSpec.v
theories/SamModel.v
theories/SamProps.v
theories/SamSpec.v
theories/ScaModel.v
theories/ScaProofs.v
theories/ScaProps.v
theories/ScaSpec.v
theories/ScoModel.v
theories/ScoProps.v
theories/ScoSpec.v
theories/SearchModel.v
theories/SearchProofs.v
theories/SearchProps.v
theories/SearchSpec.v
theories/SelModel.v
theories/SelProofs.v
theories/SelProps.v
theories/SelSpec.v
theories/SimModel.v
theories/SimProofs.v
theories/SimProps.v
theories/SimSpec.v
theories/SliModel.v
theories/SliProps.v
theories/SliSpec.v
theories/StepModel.v
theories/StepProofs.v
theories/StepProps.v
theories/StepSpec.v
theories/StopModel.v
theories/StopProofs.v
theories/StopProps.v
theories/StopSpec.v
theories/StreamModel.v
theories/StreamProofs.v
theories/StreamProps.v
theories/StreamSpec.v
theories/SubModel.v
theories/SubProofs.v
theories/SubProps.v
theories/SubSpec.v
theories/SysModel.v
theories/SysProofs.v
theories/SysProps.v
theories/SysSpec.v
theories/TakensModel.v
theories/TakensProofs.v
theories/TakensProps.v
theories/TakensSpec.v
theories/TrModel.v
theories/TrPoly.v
theories/TrProofs.v
theories/TrProps.v
theories/TrSpec.v
theories/TscBlocks.v
theories/TscBuild.v
theories/TscDt.v
theories/TscKind.v
theories/TscKindProps.v
theories/TscKindSpec.v
theories/TscModel.v
theories/TscOps.v
theories/TscProofs.v
theories/TscProps.v
theories/TscRegular.v
theories/TscShift.v
theories/TscSpec.v
theories/VarExample.v
theories/VarModel.v
theories/VarProofs.v
theories/VarProps.v
theories/VarSpec.v
theories/WinModel.v
theories/WinProofs.v
theories/WinProps.v
theories/WinSpec.v
