-Q theories Verif
theories/Base.v
theories/PyStr.v
theories/PyStrProofs.v
theories/NetModel.v
theories/NetSpec.v
theories/LinkProofs.v
theories/NetProofs.v
theories/WireProofs.v
theories/OrderProofs.v
theories/OrderExact.v
theories/TypedNet.v
theories/TermProofs.v
theories/StateProofs.v
theories/NetBuild.v
theories/PropNet.v
theories/SimModel.v
theories/SimAlg.v
theories/SimSpec.v
theories/SimNodes.v
theories/SimProofs.v
theories/SimMore.v
theories/SimDelay.v
theories/SimRegular.v
theories/Gauss.v
theories/CacheModel.v
theories/CacheProofs.v
theories/CircuitSpec.v
theories/CircuitProofs.v
theories/EnergyProofs.v
theories/EnergyNet.v
theories/RingExample.v
theories/PropSim.v
theories/PropEnergy.v
theories/CompModel.v
theories/CompSpec.v
theories/CompProofs.v
theories/CompMore.v
theories/PropComp.v
theories/EnvModel.v
theories/EnvSpec.v
theories/EnvProofs.v
theories/EnvMore.v
theories/StackModel.v
theories/PropEnv.v
theories/FloatModel.v
theories/PropFloat.v
theories/SFloat.v
theories/PropFloat64.v
theories/FloatMono.v
theories/PropFloatDelay.v
theories/SourceModel.v
theories/SourceSpec.v
theories/SourceProofs.v
theories/PropSource.v
theories/NNModel.v
theories/NNSpec.v
theories/NNProofs.v
theories/NNBer.v
theories/PropNN.v
theories/ActModel.v
theories/ActSpec.v
theories/ActProofs.v
theories/ActSim.v
theories/SoaProofs.v
theories/SoaMore.v
theories/PropAct.v
theories/FilterModel.v
theories/FilterSpec.v
theories/FilterProofs.v
theories/FilterMore.v
theories/PropFilter.v
theories/MeshModel.v
theories/MeshNet.v
theories/MeshBuild.v
theories/MeshLayers.v
theories/MeshChain.v
theories/MeshTop.v
theories/PropMesh.v
theories/UniSpec.v
theories/UniProofs.v
theories/MeshFlow.v
theories/MeshActs.v
theories/MeshSim.v
theories/MeshQuiet.v
theories/PropUni.v
theories/PlotModel.v
theories/PropPlot.v
theories/SortNet.v
theories/UnivAlg.v
theories/UnivReck.v
theories/UnivClem.v
theories/PropUniv.v
theories/Settle.v
theories/PropSettle.v
theories/ObjModel.v
theories/ObjProofs.v
theories/ObjSpec.v
theories/ObjTree.v
theories/ObjNames.v
theories/PropObj.v
theories/ObjKeys.v
theories/PropKeys.v
theories/PropPhys.v
theories/AttrModel.v
theories/AttrProofs.v
theories/PropAttr.v
theories/DevModel.v
theories/PropDev.v
theories/FeedForward.v
theories/MeshRank.v
theories/PropMeshTime.v
theories/RelabelSpec.v
theories/Relabel.v
theories/Flatten.v
theories/PropRelabel.v
theories/NestSpec.v
theories/Nested.v
theories/PropNest.v
theories/Refine.v
theories/PropRefine.v
theories/EnvKwModel.v
theories/EnvKwProofs.v
theories/PropEnvKw.v
theories/Deriv.v
theories/Family.v
theories/DerivNet.v
theories/PropDeriv.v
theories/TangentSpec.v
theories/DerivAct.v
theories/PropTangent.v
theories/LifeModel.v
theories/LifeProofs.v
theories/PropLife.v
theories/RoundSpec.v
theories/RoundProofs.v
theories/RoundFloat.v
theories/RoundLimit.v
theories/PropRound.v
theories/SimCut.v
theories/PropExact.v
theories/PrintModel.v
theories/PrintSpec.v
theories/PrintProofs.v
theories/PropPrint.v
theories/PropExact2.v
theories/MmiModel.v
theories/MmiSpec.v
theories/PropMmi.v
theories/DrawModel.v
theories/DrawSpec.v
theories/PropDraw.v
theories/DeepModel.v
theories/PropDeep.v
theories/ExampleModel.v
theories/PropExample.v
theories/PropAddDrop.v
theories/PropInterfere.v
theories/PropIntro.v
