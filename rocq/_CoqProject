-Q theories Verif
theories/CoordModel.v
theories/CoordSpec.v
theories/CoordProofs.v
theories/CoordProps.v
theories/GridModel.v
theories/GridSpec.v
theories/GridProofs.v
theories/GridProps.v
theories/CoordMap.v
theories/ClockModel.v
theories/ClockSpec.v
theories/ClockProofs.v
theories/ClockProps.v
theories/GateModel.v
theories/GateSpec.v
theories/GateProofs.v
theories/GateProofs2.v
theories/GateProofs3.v
theories/GateProps.v
theories/CellModel.v
theories/CellSpec.v
theories/CellProofs.v
theories/CellProps.v
theories/UtilModel.v
theories/UtilSpec.v
theories/UtilProofs.v
theories/UtilProps.v
theories/PathModel.v
theories/PathSpec.v
theories/PathProofs.v
theories/PathProofs2.v
theories/PathProofs3.v
theories/PathProofs4.v
theories/PathProofs5.v
theories/PathProofs6.v
theories/PathProofs7.v
theories/PathProofs8.v
theories/PathProps.v
theories/CrossSpec.v
theories/CrossProps.v
theories/RouteModel.v
theories/RouteSpec.v
theories/RouteProofs.v
theories/RouteProofs2.v
theories/RouteProofs3.v
theories/RouteProofs4.v
theories/RouteProofs5.v
theories/RouteProofs6.v
theories/RouteProps.v
theories/BuildProofs.v
theories/HexaModel.v
theories/HexaSpec.v
theories/HexaProofs.v
theories/HexaProofs2.v
theories/HexaProofs3.v
theories/HexaProps.v
theories/SidbModel.v
theories/SidbSpec.v
theories/SidbProofs.v
theories/SidbProofs2.v
theories/SidbProofs3.v
theories/SidbProofs4.v
theories/SidbProofs5.v
theories/SidbProofs6.v
theories/SidbProofs7.v
theories/SidbProofs8.v
theories/SidbProofs9.v
theories/SidbProofs10.v
theories/SidbProofs11.v
theories/SidbProofs12.v
theories/SidbProofs13.v
theories/SidbProps.v
theories/QuickProps.v
theories/ResultModel.v
theories/ResultSpec.v
theories/ResultProofs.v
theories/ResultProps.v
theories/OrthoModel.v
theories/OrthoSpec.v
theories/OrthoProofs.v
theories/OrthoProofs2.v
theories/OrthoProofs3.v
theories/OrthoProofs4.v
theories/OrthoProofs5.v
theories/OrthoProofs6.v
theories/OrthoProofs7.v
theories/OrthoProofs8.v
theories/OrthoProofs9.v
theories/OrthoProofs10.v
theories/OrthoProofs11.v
theories/OrthoProps.v
theories/FanoutModel.v
theories/FanoutSpec.v
theories/FanoutProofs.v
theories/FanoutProofs2.v
theories/FanoutProofs3.v
theories/FanoutProofs4.v
theories/FanoutProps.v
theories/FlowModel.v
theories/FlowSpec.v
theories/FlowProofs.v
theories/FlowProofs2.v
theories/FlowProofs3.v
theories/FlowProps.v
theories/DepthModel.v
theories/DepthSpec.v
theories/DepthProofs.v
theories/DepthProofs2.v
theories/DepthProofs3.v
theories/DepthProps.v
theories/VirtModel.v
theories/VirtSpec.v
theories/VirtProofs.v
theories/VirtProofs2.v
theories/VirtProofs3.v
theories/VirtProps.v
theories/OpDomModel.v
theories/OpDomSpec.v
theories/OpDomProofs.v
theories/OpDomProofs2.v
theories/OpDomProps.v
theories/ContourModel.v
theories/ContourProofs.v
theories/ContourProofs2.v
theories/ContourProps.v
theories/SatModel.v
theories/SatSpec.v
theories/ColorModel.v
theories/ColorSpec.v
theories/ColorProofs.v
theories/ColorProofs2.v
theories/ColorProps.v
theories/EpgModel.v
theories/EpgSpec.v
theories/EpgProofs.v
theories/EpgProofs2.v
theories/EpgProps.v
theories/CrouteProofs.v
theories/CrouteProofs2.v
theories/CrouteProofs3.v
theories/CrouteProps.v
theories/DetclkModel.v
theories/DetclkSpec.v
theories/DetclkProofs.v
theories/DetclkProps.v
theories/LibModel.v
theories/LibSpec.v
theories/LibProofs.v
theories/LibProofs2.v
theories/LibProps.v
theories/QcaSpec.v
theories/QcaProofs.v
theories/QcaProofs2.v
theories/QcaProofs3.v
theories/QcaProofs4.v
theories/QcaProofs5.v
theories/QcaProofs6.v
theories/QcaProofs7.v
theories/QcaProps.v
theories/FglModel.v
theories/FglSpec.v
theories/FglProofs.v
theories/FglProofs2.v
theories/FglProofs3.v
theories/FglProofs4.v
theories/FglProofs5.v
theories/FglProps.v
theories/FqcaModel.v
theories/FqcaSpec.v
theories/FqcaProofs.v
theories/FqcaProofs2.v
theories/FqcaProofs3.v
theories/FqcaProofs4.v
theories/FqcaProofs5.v
theories/FqcaProps.v
theories/FqcaFile.v
theories/FqcaFileProofs.v
theories/FqcaFileProps.v
theories/QsimModel.v
theories/QsimSpec.v
theories/QsimProofs.v
theories/QsimProofs2.v
theories/QsimProofs3.v
theories/QsimProps.v
theories/DefectModel.v
theories/DefectSpec.v
theories/DefectProofs.v
theories/DefectProofs2.v
theories/DefectProps.v
theories/RankModel.v
theories/RankSpec.v
theories/RankProofs.v
theories/RankProofs2.v
theories/RankProofs3.v
theories/RankProofs4.v
theories/RankProps.v
theories/MincrossModel.v
theories/MincrossSpec.v
theories/MincrossProofs.v
theories/MincrossProofs2.v
theories/MincrossProofs3.v
theories/MincrossProps.v
theories/BfsModel.v
theories/BfsSpec.v
theories/BfsProofs.v
theories/BfsProofs2.v
theories/BfsProps.v
theories/BdlModel.v
theories/BdlSpec.v
theories/BdlProofs.v
theories/BdlProps.v
theories/ConvModel.v
theories/ConvSpec.v
theories/ConvProofs.v
theories/ConvProps.v
theories/CritModel.v
theories/CritSpec.v
theories/CritProofs.v
theories/CritProps.v
theories/ClearModel.v
theories/ClearSpec.v
theories/ClearProps.v
theories/TallyModel.v
theories/TallySpec.v
theories/TallyProps.v
theories/RatioModel.v
theories/RatioSpec.v
theories/RatioProps.v
