-Q theories Verif
theories/Base.v
theories/Graph.v
theories/Objects.v
theories/Sim.v
theories/Api.v
theories/Loader.v
theories/Build.v
theories/GraphProofs.v
theories/MonadProofs.v
theories/Spec.v
theories/SpecCkt.v
theories/SpecSim.v
theories/RoundProofs.v
theories/ResProofs.v
theories/Frames.v
theories/ApiFrames.v
theories/ObjProofs.v
theories/ApiProofs.v
theories/CircuitProofs.v
theories/ValidateProofs.v
theories/GroupProofs.v
theories/PathProofs.v
theories/QuietProofs.v
theories/RouteProofs.v
theories/Ecmp.v
theories/IgpProofs.v
theories/LeastProofs.v
theories/SpecSig.v
theories/SigProofs.v
theories/ResigProofs.v
theories/SigSeq.v
theories/SigUpdate.v
theories/SigEnd.v
theories/TrafficProofs.v
theories/AddProofs.v
theories/SpecHist.v
theories/QueryProofs.v
theories/HistProofs.v
theories/SpecMetric.v
theories/SpecFlow.v
theories/SpecQuery.v
theories/ShareProofs.v
theories/MetricProofs.v
theories/FlowProofs.v
theories/UtilProofs.v
theories/DemandProofs.v
theories/PathQuery.v
theories/LspTraffic.v
theories/Nets.v
theories/PropertiesApi.v
theories/PropertiesValidate.v
theories/PropertiesRoute.v
theories/PropertiesSignal.v
theories/PropertiesTraffic.v
theories/PropertiesQuery.v
theories/SpecFail.v
theories/FailProofs.v
theories/RepairProofs.v
theories/HeldProofs.v
theories/RepairCalls.v
theories/PropertiesFail.v
theories/SpecLoad.v
theories/LoadProofs.v
theories/LoadRun.v
theories/LoadBuild.v
theories/PropertiesLoad.v
theories/SpecFresh.v
theories/IndepProofs.v
theories/SpecOrder.v
theories/OrderProofs.v
theories/PropertiesIndep.v
theories/PropertiesOrder.v
theories/SpecMember.v
theories/SpecInfo.v
theories/MemberProofs.v
theories/InfoProofs.v
theories/PropertiesMember.v
theories/SpecRepair.v
theories/RepairAll.v
theories/RepairSrlg.v
theories/RepairTotal.v
theories/PropertiesRepair.v
theories/SpecShort.v
theories/ShortPaths.v
theories/ShortProofs.v
theories/ShortMore.v
theories/ShortFlow.v
theories/ShortTotal.v
theories/ShortLsp.v
theories/PropertiesShort.v
theories/MapTypes.v
theories/Map.v
theories/SpecMap.v
theories/MapProofs.v
theories/MapMore.v
theories/MapLists.v
theories/MapSelect.v
theories/MapEdges.v
theories/PropertiesMap.v
theories/SpecWhatIf.v
theories/WhatIf.v
theories/WhatIfMore.v
theories/WhatIfApi.v
theories/PropertiesWhatIf.v
theories/SpecOwn.v
theories/OwnProofs.v
theories/OwnApi.v
theories/PropertiesOwn.v
theories/World.v
theories/SpecWorld.v
theories/WorldProofs.v
theories/PropertiesWorld.v
theories/SpecTotal.v
theories/LspTotal.v
theories/SigTotal.v
theories/LspSucceeds.v
theories/LspExact.v
theories/PropertiesTotal.v
theories/SpecSame.v
theories/OrderLsps.v
theories/OrderShort.v
theories/PropertiesSame.v
theories/SpecBalance.v
theories/Balance.v
theories/PropertiesBalance.v
theories/SpecMore.v
theories/MoreLsps.v
theories/DownLsps.v
theories/GrownLsps.v
theories/PropertiesMore.v
theories/SpecData.v
theories/MatchLsps.v
theories/DataLsps.v
theories/KindLsps.v
theories/PropertiesData.v
theories/SpecFile.v
theories/FileLsps.v
theories/PropertiesFile.v
theories/Text.v
theories/SpecText.v
theories/TextProofs.v
theories/NumProofs.v
theories/PropertiesText.v
theories/MatchShort.v
theories/DataShort.v
theories/PropertiesShortData.v
theories/SpecAnswer.v
theories/Answers.v
theories/PropertiesAnswer.v
theories/Float.v
theories/FloatSim.v
theories/FloatProofs.v
theories/FloatLock.v
theories/FloatFree.v
theories/SpecFloat.v
theories/FloatNearest.v
theories/FloatMain.v
theories/FloatFail.v
theories/FloatErr.v
theories/FloatQuery.v
theories/PropertiesFloat.v
theories/FloatSig.v
theories/FloatGroups.v
theories/FloatLsps.v
theories/PropertiesFloatLsp.v
theories/SpecCost.v
theories/WhatCost.v
theories/MirrorProofs.v
theories/PropertiesCost.v
theories/RenameProofs.v
theories/PartProofs.v
theories/NameLsps.v
theories/PartLsps.v
theories/PropertiesRename.v
theories/SpecExn.v
theories/ExnProofs.v
theories/PropertiesExn.v
theories/Print.v
theories/SpecPrint.v
theories/PrintProofs.v
theories/PropertiesPrint.v
theories/SpecCut.v
theories/CutProofs.v
theories/PropertiesCut.v
theories/SpecWider.v
theories/WiderProofs.v
theories/WiderLsps.v
theories/LaidProofs.v
theories/PropertiesWider.v
theories/PropertiesWiderLsps.v
theories/SpecLspCost.v
theories/CostLsps.v
theories/PropertiesLspCost.v
theories/SpecCap.v
theories/CapLsps.v
theories/PropertiesCap.v
theories/SpecSteer.v
theories/SteerLsps.v
theories/PropertiesSteer.v
