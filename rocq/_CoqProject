-Q theories Verif
theories/BitLemmas.v
theories/CutModel.v
theories/CutSpec.v
theories/CutProofs.v
theories/CutMaskProofs.v
theories/CutHistProofs.v
theories/CutCatProofs.v
theories/CutSelProofs.v
theories/CutRefute.v
theories/CutMoreSpec.v
theories/CutMore.v
theories/CutProps.v
theories/ArrModel.v
theories/ArrSpec.v
theories/ArrProofs.v
theories/ArrProps.v
theories/QcPre.v
theories/DerModel.v
theories/DerSpec.v
theories/DerProofs.v
theories/DerProps.v
theories/LagModel.v
theories/LagSpec.v
theories/LagProofs.v
theories/LagProps.v
theories/FluxModel.v
theories/FluxSpec.v
theories/FluxProofs.v
theories/FluxProps.v
theories/QSort.v
theories/RobModel.v
theories/RobSpec.v
theories/RobProofs.v
theories/QscProofs.v
theories/QscLoop.v
theories/RobMore.v
theories/RobProps.v
theories/MrgModel.v
theories/MrgSpec.v
theories/MrgProps.v
theories/ToepModel.v
theories/ToepSpec.v
theories/ToepProofs.v
theories/ToepProps.v
theories/WhiModel.v
theories/WhiSpec.v
theories/WhiProofs.v
theories/WhiProps.v
theories/OptModel.v
theories/OptSpec.v
theories/OptProofs.v
theories/OptProps.v
theories/LjhModel.v
theories/LjhSpec.v
theories/LjhProofs.v
theories/LjhEdit.v
theories/LjhProps.v
theories/Kept.v
theories/NameModel.v
theories/NameSpec.v
theories/NameProofs.v
theories/NameProps.v
theories/NoiModel.v
theories/NoiSpec.v
theories/NoiProofs.v
theories/NoiProps.v
theories/FitModel.v
theories/FitSpec.v
theories/FitProofs.v
theories/FitProps.v
theories/AvgModel.v
theories/AvgSpec.v
theories/AvgProofs.v
theories/AvgProps.v
theories/OffModel.v
theories/OffSpec.v
theories/OffProofs.v
theories/OffProps.v
theories/StModel.v
theories/StSpec.v
theories/StProofs.v
theories/StProps.v
theories/RecModel.v
theories/RecSpec.v
theories/RecProofs.v
theories/RecProps.v
theories/GrpModel.v
theories/GrpSpec.v
theories/GrpProofs.v
theories/GrpProps.v
theories/HistModel.v
theories/HistSpec.v
theories/HistProofs.v
theories/HistProps.v
theories/XtModel.v
theories/XtSpec.v
theories/XtProofs.v
theories/XtProps.v
theories/AcModel.v
theories/AcSpec.v
theories/AcProofs.v
theories/AcProps.v
theories/EntModel.v
theories/EntSpec.v
theories/EntProofs.v
theories/EntCrossProofs.v
theories/EntProps.v
theories/SgModel.v
theories/SgSpec.v
theories/SgProofs.v
theories/SgProps.v
theories/KinkModel.v
theories/KinkSpec.v
theories/KinkProofs.v
theories/KinkProps.v
theories/SplModel.v
theories/SplSpec.v
theories/SplProofs.v
theories/SplEval.v
theories/SplMore.v
theories/SplProps.v
theories/PhaseModel.v
theories/PhaseSpec.v
theories/PhaseProofs.v
theories/PhaseMore.v
theories/PhaseProps.v
theories/PmModel.v
theories/PmSpec.v
theories/PmProofs.v
theories/PmQr.v
theories/PmProps.v
theories/DvModel.v
theories/DvSpec.v
theories/DvPower.v
theories/DvDomain.v
theories/DvProofs.v
theories/DvMore.v
theories/DvProps.v
theories/EcModel.v
theories/EcSpec.v
theories/EcProofs.v
theories/EcPoints.v
theories/EcHistory.v
theories/EcCurves.v
theories/EcConvert.v
theories/EcValues.v
theories/EcProps.v
theories/SumModel.v
theories/SumSpec.v
theories/SumProofs.v
theories/SumRow.v
theories/SumPy.v
theories/SumSeg.v
theories/SumRise.v
theories/SumProps.v
theories/LocModel.v
theories/LocSpec.v
theories/LocProofs.v
theories/LocMean.v
theories/LocProps.v
theories/AsgModel.v
theories/AsgSpec.v
theories/AsgProofs.v
theories/AsgProps.v
theories/MleModel.v
theories/MleSpec.v
theories/MleProofs.v
theories/MleProps.v
theories/SpcModel.v
theories/SpcSpec.v
theories/SpcProofs.v
theories/SpcProps.v
theories/FilModel.v
theories/FilSpec.v
theories/FilProofs.v
theories/FilProps.v
theories/DcModel.v
theories/DcSpec.v
theories/DcProofs.v
theories/DcProps.v
theories/NbrModel.v
theories/NbrSpec.v
theories/NbrProofs.v
theories/NbrProps.v
theories/GtModel.v
theories/GtSpec.v
theories/GtProofs.v
theories/GtProps.v
theories/WnModel.v
theories/WnSpec.v
theories/WnProofs.v
theories/WnProps.v
theories/OcModel.v
theories/OcSpec.v
theories/OcProofs.v
theories/OcProps.v
theories/FlModel.v
theories/FlSpec.v
theories/FlProofs.v
theories/FlProps.v
theories/RsModel.v
theories/RsSpec.v
theories/RsProofs.v
theories/RsProps.v
theories/HxModel.v
theories/HxSpec.v
theories/HxProofs.v
theories/HxProps.v
theories/DtModel.v
theories/DtSpec.v
theories/DtProofs.v
theories/DtProps.v
theories/LsModel.v
theories/LsSpec.v
theories/LsProofs.v
theories/LsProps.v
theories/FdModel.v
theories/FdSpec.v
theories/FdProofs.v
theories/FdProps.v
theories/CgModel.v
theories/CgSpec.v
theories/CgProofs.v
theories/CgProps.v
theories/LvModel.v
theories/LvSpec.v
theories/LvProofs.v
theories/LvProps.v
theories/FtModel.v
theories/FtAlg.v
theories/FtSpec.v
theories/FtProofs.v
theories/FtProps.v
theories/PsModel.v
theories/PsSpec.v
theories/PsProofs.v
theories/PsProps.v
theories/FoModel.v
theories/FoSpec.v
theories/FoProofs.v
theories/FoProps.v
theories/FfModel.v
theories/FfSpec.v
theories/FfProofs.v
theories/FfProps.v
theories/NxModel.v
theories/NxSpec.v
theories/NxProofs.v
theories/NxProps.v
theories/AsdModel.v
theories/AsdSpec.v
theories/AsdProofs.v
theories/AsdProps.v
theories/CmModel.v
theories/CmSpec.v
theories/CmProofs.v
theories/CmProps.v
theories/AlModel.v
theories/AlSpec.v
theories/AlProofs.v
theories/AlProps.v
theories/SsModel.v
theories/SsSpec.v
theories/SsProofs.v
theories/SsProps.v
theories/LfModel.v
theories/LfSpec.v
theories/LfProofs.v
theories/LfProps.v
theories/GprModel.v
theories/GprSpec.v
theories/GprProofs.v
theories/GprProps.v
theories/PrmModel.v
theories/PrmSpec.v
theories/PrmProofs.v
theories/PrmProps.v
theories/HcModel.v
theories/HcSpec.v
theories/HcProofs.v
theories/HcProps.v
theories/FwModel.v
theories/FwSpec.v
theories/FwProps.v
theories/FgModel.v
theories/FgSpec.v
theories/FgProofs.v
theories/FgProps.v
theories/NpModel.v
theories/NpSpec.v
theories/NpProofs.v
theories/NpProps.v
theories/MgModel.v
theories/MgSpec.v
theories/MgProofs.v
theories/MgProps.v
theories/TrModel.v
theories/TrSpec.v
theories/TrProofs.v
theories/TrProps.v
theories/LoModel.v
theories/LoSpec.v
theories/LoProofs.v
theories/LoProps.v
theories/TgModel.v
theories/TgSpec.v
theories/TgProofs.v
theories/TgProps.v
theories/TnModel.v
theories/TnProofs.v
theories/TnProps.v
