-Q theories Verif
theories/Base.v
theories/Names.v
theories/Lists.v
theories/SchedModel.v
theories/SchedSpec.v
theories/SchedProofs.v
theories/SchedMaskProofs.v
theories/SchedPolicyProofs.v
theories/SchedPolicyProofs2.v
theories/PrunerModel.v
theories/PrunerSpec.v
theories/PrunerProofs.v
theories/PrunerHistProofs.v
theories/CkptModel.v
theories/PropertiesPrune.v
theories/StructModel.v
theories/StructSpec.v
theories/StructProofs.v
theories/StructRankProofs.v
theories/PropertiesStruct.v
theories/PropertiesStruct2.v
theories/PropertiesBlocks.v
theories/QuantModel.v
theories/QuantSpec.v
theories/QuantProofs.v
theories/PropertiesQuant.v
theories/RangeModel.v
theories/RangeSpec.v
theories/RangeProofs.v
theories/RangeWrapProofs.v
theories/PropertiesRange.v
theories/PropertiesRange2.v
theories/PropertiesEma.v
theories/PropertiesRange3.v
theories/PropertiesStats.v
theories/QzrModel.v
theories/QzrSpec.v
theories/QzrProofs.v
theories/QzrProofs2.v
theories/QzrProofs3.v
theories/PropertiesQzr2.v
theories/ThinModel.v
theories/ThinSpec.v
theories/ThinProofs.v
theories/ThinExecProofs.v
theories/PropertiesThin.v
theories/PropertiesThin2.v
theories/ThinSearchProofs.v
theories/PropertiesQzr.v
theories/BnModel.v
theories/BnSpec.v
theories/BnProofs.v
theories/BnGraphProofs.v
theories/PropertiesBn.v
theories/AppModel.v
theories/AppSpec.v
theories/PropertiesLr.v
theories/PropertiesTracker.v
theories/PropertiesData.v
theories/PropertiesKd.v
theories/PropertiesKdReal.v
theories/PropertiesExit.v
theories/PropertiesLoop.v
theories/CkptProofs.v
theories/ResumeProofs.v
theories/SchedExtraProofs.v
theories/SchedTightProofs.v
theories/PropertiesSched.v
theories/PropertiesGraph.v
theories/ThinNetSpec.v
theories/ThinSimProofs.v
theories/ThinGraphProofs.v
theories/ThinRecipeProofs.v
theories/ThinFiltersProofs.v
theories/ThinDataProofs.v
theories/ThinFiltersSim.v
theories/ThinFiltersTotal.v
theories/ThinChannelsProofs.v
theories/ThinChannelsSim.v
theories/ThinChannelsTotal.v
theories/PropertiesThinNet.v
theories/PropertiesThinChannels.v
theories/PropertiesThinFindings.v
theories/CollModel.v
theories/CollSpec.v
theories/CollProofs.v
theories/PropertiesColl.v
theories/HistModel.v
theories/PropertiesHist.v
theories/RnnModel.v
theories/RnnSpec.v
theories/RnnProofs.v
theories/PropertiesRnn.v
theories/SgModel.v
theories/SgSpec.v
theories/SgProofs.v
theories/SgTopo.v
theories/SgNames.v
theories/SgListModel.v
theories/SgListSpec.v
theories/SgListProofs.v
theories/SumModel.v
theories/SumSpec.v
theories/SumProofs.v
theories/PropertiesSum.v
theories/PadModel.v
theories/PadSpec.v
theories/PadProofs.v
theories/PropertiesPad.v
theories/SensModel.v
theories/SensSpec.v
theories/SensProofs.v
theories/SensOnceProofs.v
theories/SensMainProofs.v
theories/PropertiesSens.v
theories/GreedyModel.v
theories/PropertiesSg.v
theories/ConfModel.v
theories/ConfSpec.v
theories/ConfProofs.v
theories/PropertiesConf.v
theories/RegModel.v
theories/RegSpec.v
theories/PropertiesReg.v
theories/PropertiesDrop.v
theories/PtqModel.v
theories/PtqSpec.v
theories/PtqProofs.v
theories/PropertiesPtq.v
theories/PropertiesPtq2.v
theories/PropertiesPtq3.v
theories/CvtModel.v
theories/CvtSpec.v
theories/PropertiesCvt.v
theories/GreedySpec.v
theories/GreedyProofs.v
theories/GreedyProofs2.v
theories/GreedyProofs3.v
theories/PropertiesGreedy.v
theories/GfpModel.v
theories/GfpSpec.v
theories/GfpProofs.v
theories/PropertiesGfp.v
theories/LapqModel.v
theories/LapqSpec.v
theories/LapqProofs.v
theories/LapqProofs2.v
theories/LapqProofs3.v
theories/LapqProofs4.v
theories/PropertiesLapq.v
theories/PrepModel.v
theories/PrepSpec.v
theories/PrepProofs.v
theories/PrepProofs2.v
theories/PropertiesPrep.v
theories/EmbModel.v
theories/EmbSpec.v
theories/EmbProofs.v
theories/PropertiesEmb.v
theories/PropertiesEmb2.v
theories/ReplModel.v
theories/ReplSpec.v
theories/PropertiesRepl.v
theories/EmbSpec2.v
theories/PropertiesEmb3.v
theories/LinitModel.v
theories/LinitSpec.v
theories/PropertiesLinit.v
theories/PropertiesLinit2.v
theories/AmcModel.v
theories/AmcSpec.v
theories/AmcProofs.v
theories/PropertiesAmc.v
theories/PropertiesRepl2.v
theories/CkfModel.v
theories/PropertiesCkf.v
theories/PropertiesCkf2.v
theories/EeModel.v
theories/EeSpec.v
theories/EeProofs.v
theories/PropertiesEe.v
theories/CrModel.v
theories/CrSpec.v
theories/PropertiesCr.v
theories/GradModel.v
theories/GradSpec.v
theories/GradProofs.v
theories/GradProofs2.v
theories/PropertiesGrad.v
theories/RsmModel.v
theories/RsmSpec.v
theories/PropertiesRsm.v
theories/RebModel.v
theories/RebSpec.v
theories/RebProofs.v
theories/PropertiesReb.v
theories/RgrModel.v
theories/RgrSpec.v
theories/RgrProofs.v
theories/PropertiesRgr.v
theories/EltModel.v
theories/EltSpec.v
theories/EltProofs.v
theories/PropertiesElt.v
theories/HierModel.v
theories/HierSpec.v
theories/HierProofs.v
theories/PropertiesHier.v
theories/CntModel.v
theories/CntSpec.v
theories/CntProofs.v
theories/PropertiesCnt.v
theories/RmModel.v
theories/RmSpec.v
theories/RmProofs.v
theories/PropertiesRm.v
theories/MemModel.v
theories/MemSpec.v
theories/MemProofs.v
theories/PropertiesMem.v
theories/LogModel.v
theories/LogSpec.v
theories/LogProofs.v
theories/PropertiesLog.v
theories/LmModel.v
theories/LmSpec.v
theories/LmProofs.v
theories/PropertiesLm.v
theories/FmModel.v
theories/FmSpec.v
theories/FmProofs.v
theories/FmProofs2.v
theories/FmProofs3.v
theories/PropertiesFm.v
theories/FmLs.v
theories/ChModel.v
theories/ChSpec.v
theories/ChProofs.v
theories/PropertiesCh.v
theories/EnvModel.v
theories/EnvSpec.v
theories/EnvProofs.v
theories/PropertiesEnv.v
theories/LotModel.v
theories/LotSpec.v
theories/LotProofs.v
theories/PropertiesLot.v
theories/SmpModel.v
theories/SmpSpec.v
theories/SmpProofs.v
theories/PropertiesSmp.v
theories/NcfModel.v
theories/NcfSpec.v
theories/NcfProofs.v
theories/PropertiesNcf.v
theories/GenModel.v
theories/GenSpec.v
theories/GenProofs.v
theories/PropertiesGen.v
theories/MetModel.v
theories/PropertiesMet.v
