-Q theories Verif
theories/PyStr.v
theories/PyStrFacts.v
theories/PyBase.v
theories/IniModel.v
theories/IniSpec.v
theories/IniProofs.v
theories/IniLayoutProofs.v
theories/IniProps.v
theories/ParamModel.v
theories/ParamSpec.v
theories/ParamProofs.v
theories/ParamProps.v
theories/BoundsModel.v
theories/BoundsSpec.v
theories/BoundsProofs.v
theories/BoundsProps.v
theories/CovModel.v
theories/CovProofs.v
theories/CovProps.v
theories/ThinModel.v
theories/ThinSpec.v
theories/ThinProofs.v
theories/ThinProps.v
theories/ChainModel.v
theories/ChainSpec.v
theories/ChainProofs.v
theories/ChainProofs2.v
theories/ChainProps.v
theories/StatModel.v
theories/StatSpec.v
theories/StatProofs.v
theories/StatProps.v
theories/ConfModel.v
theories/ConfSpec.v
theories/ConfProofs.v
theories/ConfProps.v
theories/FixedModel.v
theories/FixedProofs.v
theories/FixedProps.v
theories/JobModel.v
theories/JobSpec.v
theories/JobProofs.v
theories/JobProofs2.v
theories/JobProps.v
theories/PyNum.v
theories/BatchModel.v
theories/BatchSpec.v
theories/BatchProofs.v
theories/BatchProofs2.v
theories/BatchProps.v
theories/RunModel.v
theories/RunSpec.v
theories/RunProofs.v
theories/RunProps.v
theories/GridModel.v
theories/GridSpec.v
theories/GridProofs.v
theories/GridProofs2.v
theories/GridProps.v
theories/DensModel.v
theories/DensSpec.v
theories/DensProofs.v
theories/DensProofs2.v
theories/DensProps.v
theories/ConvModel.v
theories/ConvSpec.v
theories/ConvProofs.v
theories/ConvProofs2.v
theories/ConvProofs3.v
theories/ConvProps.v
theories/FmtModel.v
theories/FmtSpec.v
theories/FmtProofs.v
theories/FmtProofs2.v
theories/FmtProps.v
theories/TableModel.v
theories/TableSpec.v
theories/TableProofs.v
theories/TableProps.v
theories/MargeModel.v
theories/MargeSpec.v
theories/MargeProofs.v
theories/MargeProps.v
theories/CobayaModel.v
theories/CobayaSpec.v
theories/CobayaProofs.v
theories/CobayaProps.v
theories/HistModel.v
theories/HistSpec.v
theories/HistProofs.v
theories/HistProps.v
theories/BestModel.v
theories/BestSpec.v
theories/BestProofs.v
theories/BestProps.v
theories/McmcModel.v
theories/McmcSpec.v
theories/McmcProofs.v
theories/McmcProps.v
theories/BlockModel.v
theories/BlockSpec.v
theories/BlockProofs.v
theories/BlockProps.v
theories/SortModel.v
theories/SortSpec.v
theories/SortProofs.v
theories/SortProps.v
theories/CollectModel.v
theories/CollectSpec.v
theories/CollectProofs.v
theories/CollectProps.v
theories/MpiModel.v
theories/MpiProofs.v
theories/MpiProps.v
theories/LikeModel.v
theories/LikeSpec.v
theories/LikeProofs.v
theories/LikeProps.v
theories/ImpModel.v
theories/ImpSpec.v
theories/ImpProofs.v
theories/ImpProofs2.v
theories/ImpProps.v
theories/PsetModel.v
theories/PsetSpec.v
theories/PsetProofs.v
theories/PsetProps.v
theories/NamesModel.v
theories/NamesSpec.v
theories/NamesProofs.v
theories/NamesProofs2.v
theories/NamesProofs3.v
theories/ColModel.v
theories/ColSpec.v
theories/ColProofs.v
theories/ColProofs2.v
theories/NamesProps.v
theories/ColProps.v
theories/SetupModel.v
theories/SetupSpec.v
theories/SetupProofs.v
theories/SetupProps.v
theories/RedModel.v
theories/RedSpec.v
theories/RedProofs.v
theories/RedProps.v
theories/TheoModel.v
theories/TheoSpec.v
theories/TheoProofs.v
theories/TheoProps.v
theories/CosModel.v
theories/CosSpec.v
theories/CosProofs.v
theories/CosProps.v
theories/DerModel.v
theories/DerSpec.v
theories/DerProps.v
theories/ClModel.v
theories/ClSpec.v
theories/ClProofs.v
theories/ClProps.v
theories/BaoModel.v
theories/BaoSpec.v
theories/BaoProofs.v
theories/BaoProps.v
theories/SnModel.v
theories/SnSpec.v
theories/SnProofs.v
theories/SnProps.v
theories/MapModel.v
theories/MapSpec.v
theories/MapProofs.v
theories/MapProps.v
theories/HlModel.v
theories/HlSpec.v
theories/HlProofs.v
theories/HlProps.v
theories/WlModel.v
theories/WlSpec.v
theories/WlProofs.v
theories/WlProps.v
theories/MpkModel.v
theories/MpkSpec.v
theories/MpkProofs.v
theories/MpkProps.v
theories/PyClModel.v
theories/PyClSpec.v
theories/PyClProofs.v
theories/PyClProps.v
theories/PyClLikeProps.v
theories/KdeModel.v
theories/KdeSpec.v
theories/KdeProofs.v
theories/KdeProps.v
theories/Kde2Model.v
theories/Kde2Spec.v
theories/Kde2Proofs.v
theories/Kde2Props.v
theories/CnvgModel.v
theories/CnvgSpec.v
theories/CnvgProofs.v
theories/CnvgProps.v
theories/RaftModel.v
theories/RaftSpec.v
theories/RaftProofs.v
theories/RaftProps.v
theories/LstModel.v
theories/LstSpec.v
theories/LstProofs.v
theories/LstProps.v
theories/PcaModel.v
theories/PcaSpec.v
theories/PcaProofs.v
theories/PcaProps.v
theories/BkModel.v
theories/BkSpec.v
theories/BkProofs.v
theories/BkProps.v
theories/AbModel.v
theories/AbSpec.v
theories/AbProps.v
theories/PlModel.v
theories/PlSpec.v
theories/PlProofs.v
theories/PlProps.v
theories/NeffModel.v
theories/NeffSpec.v
theories/NeffProofs.v
theories/NeffProps.v
theories/StepModel.v
theories/StepSpec.v
theories/StepProps.v
theories/SdModel.v
theories/SdSpec.v
theories/SdProps.v
theories/MixModel.v
theories/MixSpec.v
theories/MixProps.v
theories/BwModel.v
theories/BwSpec.v
theories/BwProps.v
theories/SnpModel.v
theories/SnpSpec.v
theories/SnpProps.v
theories/FcModel.v
theories/FcSpec.v
theories/FcProps.v
theories/TagModel.v
theories/TagSpec.v
theories/TagProps.v
theories/PlkModel.v
theories/PlkSpec.v
theories/PlkProps.v
theories/SmoModel.v
theories/SmoSpec.v
theories/SmoProps.v
theories/UniModel.v
theories/UniSpec.v
theories/UniProps.v
theories/LcModel.v
theories/LcSpec.v
theories/LcProps.v
