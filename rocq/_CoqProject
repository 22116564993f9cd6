-Q theories Verif
theories/Base.v
theories/Fl.v
theories/Rng.v
theories/GABase.v
theories/GABaseProofs.v
theories/GAOpsProofs.v
theories/Props_GA.v
theories/StdOps.v
theories/SOGA.v
theories/ListFacts.v
theories/SOGAProofs.v
theories/FlFacts.v
theories/SOGAProofs2.v
theories/RandProofs.v
theories/SOGAProofs3.v
theories/SOGAProofs4.v
theories/SOGAProofs5.v
theories/SOGAProofs6.v
theories/SOGAProofs7.v
theories/SOGAProofs8.v
theories/SOGAProofs9.v
theories/Props_SOGA.v
theories/SOGAProofs10.v
theories/SOGAProofs11.v
theories/SOGAProofs12.v
theories/Props_SOGA2.v
theories/GlobalM.v
theories/GlobalSpec.v
theories/GlobalProofs.v
theories/GlobalProofs2.v
theories/GlobalProofs3.v
theories/Props_Global.v
theories/MOGA.v
theories/MOGASpec.v
theories/MOGAProofs.v
theories/MOGAProofs2.v
theories/MOGAProofs3.v
theories/MOGAProofs4.v
theories/MOGAProofs5.v
theories/Props_MOGA.v
theories/Box.v
theories/BoxProofs.v
theories/Defaults.v
theories/DefaultsProofs.v
theories/VarInv.v
theories/Props_Box.v
theories/MultiBitSet.v
theories/MultiBitSetProofs.v
theories/MultiBitSetProofs2.v
theories/Props_Bits.v
theories/Matrix.v
theories/Props_Matrix.v
theories/PSO.v
theories/PSOSpec.v
theories/PSOProofs.v
theories/PSOProofs2.v
theories/PSOProofs3.v
theories/Props_PSO.v
theories/WheelSpec.v
theories/WheelProofs.v
theories/WheelProofs2.v
theories/WheelProofs3.v
theories/Props_Wheel.v
theories/AOS.v
theories/AOSSpec.v
theories/AOSProofs.v
theories/AOSProofs2.v
theories/AOSProofs3.v
theories/AOSProofs4.v
theories/AOSProofs5.v
theories/AOSProofs6.v
theories/AOSMove.v
theories/AOSProofs7.v
theories/AOSSafe.v
theories/Props_AOS.v
theories/Props_AOS2.v
theories/BinCode.v
theories/BinCodeProofs.v
theories/BinCodeProofs2.v
theories/BinCodeProofs3.v
theories/Props_BinCode.v
theories/NSGA3.v
theories/NSGA3Spec.v
theories/NSGA3Proofs.v
theories/NSGA3Proofs2.v
theories/NSGA3Proofs3.v
theories/NSGA3Proofs4.v
theories/Props_NSGA3.v
theories/Bench.v
theories/BenchR.v
theories/BenchN.v
theories/BenchMO.v
theories/BenchDTLZ.v
theories/BenchDTLZ2.v
theories/BenchD.v
theories/BenchSpec.v
theories/Props_Bench.v
theories/Props_BenchMO.v
theories/SOGAObj.v
theories/SOGAObjSpec.v
theories/SOGAObjProofs.v
theories/Props_SOGAObj.v
theories/BoxObj.v
theories/BoxObjProofs.v
theories/Props_BoxObj.v
theories/Threads.v
theories/Props_Threads.v
theories/PSOObj.v
theories/PSOObjSpec.v
theories/PSOObjProofs.v
theories/Props_PSOObj.v
theories/AOSObj.v
theories/AOSObjSpec.v
theories/AOSObjProofs.v
theories/Props_AOSObj.v
theories/MOGAObj.v
theories/MOGAObjSpec.v
theories/MOGAObjProofs.v
theories/Props_MOGAObj.v
theories/MOGAProofs6.v
theories/Props_Elite.v
theories/BoxF.v
theories/BoxFProofs.v
theories/Props_BoxF.v
theories/RegionProofs.v
theories/RegionSpec.v
theories/RegionSpecM.v
theories/RegionSOGA.v
theories/RegionMOGA.v
theories/Props_Region.v
theories/BlendProofs.v
theories/Props_Blend.v
theories/Par.v
theories/ParProofs.v
theories/Props_Par.v
theories/ProgMO.v
theories/ProgMOSpec.v
theories/ProgMOProofs.v
theories/ProgMOProofs2.v
theories/Props_ProgMO.v
theories/ProgSO.v
theories/ProgSOSpec.v
theories/ProgSOProofs.v
theories/ProgSOProofs2.v
theories/Props_ProgSO.v
theories/PSORegionSpec.v
theories/PSORegionProofs.v
theories/Props_PSORegion.v
theories/ProgPSO.v
theories/ProgPSOSpec.v
theories/ProgPSOProofs.v
theories/ProgPSOProofs2.v
theories/Props_ProgPSO.v
theories/ProgAOSSpec.v
theories/ShareProofs.v
theories/ProgAOS.v
theories/ProgAOSProofs.v
theories/Props_ProgAOS.v
theories/BitIter.v
theories/Props_BitIter.v
theories/DiscObj.v
theories/DiscObjProofs.v
theories/Props_DiscObj.v
theories/ProgBox.v
theories/Props_ProgBox.v
theories/MatObj.v
theories/Props_MatObj.v
theories/ProgSmall.v
theories/Props_ProgSmall.v
theories/SolverCopy.v
theories/SolverCopyProofs.v
theories/Props_SolverCopy.v
theories/MOGACopy.v
theories/MOGACopyProofs.v
theories/Props_MOGACopy.v
theories/AOSCopy.v
theories/AOSCopyProofs.v
theories/Props_AOSCopy.v
theories/PSOCopy.v
theories/Props_PSOCopy.v
theories/Bench8.v
theories/Props_Bench8.v
theories/GaussObj.v
theories/Props_GaussObj.v
theories/MapMore.v
theories/Props_MapMore.v
theories/EnumStr.v
theories/Props_EnumStr.v
theories/AOSLayer.v
theories/Props_AOSLayer.v
theories/RandArr.v
theories/Props_RandArr.v
