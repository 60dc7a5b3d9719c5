-Q theories Verif
theories/Base.v
theories/Scalar.v
theories/Spec.v
theories/Loops.v
theories/DenseModel.v
theories/CooModel.v
theories/Observe.v
theories/CooProof.v
theories/GSort.v
theories/CooSortProof.v
theories/CooMiscProof.v
theories/PropertiesCoo.v
theories/CrsModel.v
theories/CrsObserve.v
theories/CrsProof.v
theories/SumFacts.v
theories/CrsBlasProof.v
theories/CrsBlas2Proof.v
theories/CrsConvProof.v
theories/CrsTransProof.v
theories/CrsMatmulProof.v
theories/CrsSimProof.v
theories/CrsMiscProof.v
theories/PropertiesCrs.v
theories/Mem.v
theories/ParProof.v
theories/MemSpec.v
theories/VecModel.v
theories/KernelProof.v
theories/VecSpec.v
theories/VecProof.v
theories/PropertiesVec.v
theories/DenseBlasModel.v
theories/DenseSpec.v
theories/DenseBlasProof.v
theories/DenseProof.v
theories/PropertiesDense.v
theories/SolverModel.v
theories/SolverSpec.v
theories/SolverProof.v
theories/SolverSorProof.v
theories/SolverProof2.v
theories/CgProof.v
theories/PropertiesSolver.v
theories/ReduceModel.v
theories/ReduceSpec.v
theories/ReduceProof.v
theories/PropertiesReduce.v
theories/TensorModel.v
theories/TensorSpec.v
theories/TensorProof.v
theories/ReshapeProof.v
theories/TensorCooProof.v
theories/TensorConvProof.v
theories/PropertiesTensor.v
theories/TensorBlasModel.v
theories/TensorBlasSpec.v
theories/TensorBlasProof.v
theories/PropertiesTensorBlas.v
theories/CrsParModel.v
theories/CrsParProof.v
theories/PropertiesPar.v
theories/IoModel.v
theories/IoProof.v
theories/FloatText.v
theories/FloatTextProof.v
theories/PropertiesIo.v
theories/GenModel.v
theories/GenProof.v
theories/GenRandProof.v
theories/PropertiesGen.v
theories/EigModel.v
theories/EigProof.v
theories/PropertiesEig.v
theories/LogModel.v
theories/LogTable.v
theories/LogProof.v
theories/PropertiesLog.v
theories/LinOpModel.v
theories/LinOpSpec.v
theories/LinOpProof.v
theories/LinOpProof2.v
theories/PropertiesLinOp.v
theories/TensorCrsModel.v
theories/TensorCrsSpec.v
theories/TensorCrsProof.v
theories/TensorCrsProof2.v
theories/TensorCrsProof3.v
theories/TensorCrsProof4.v
theories/PropertiesTensorCrs.v
theories/GpuModel.v
theories/GpuSpec.v
theories/GpuProof.v
theories/GpuProof2.v
theories/GpuProof3.v
theories/GpuProof4.v
theories/GpuProof5.v
theories/GpuProof6.v
theories/PropertiesGpu.v
theories/MpiMap.v
theories/MpiModel.v
theories/MpiProof.v
theories/MpiProof2.v
theories/MpiProof3.v
theories/MpiProof4.v
theories/MpiProof5.v
theories/MpiSpec.v
theories/MpiProof6.v
theories/MpiProof7.v
theories/MpiProof8.v
theories/MpiProof9.v
theories/MpiProof10.v
theories/MpiProof11.v
theories/MpiProof12.v
theories/MpiProof13.v
theories/MpiReduce.v
theories/PropertiesMpi.v
theories/LobSpec.v
theories/LobModel.v
theories/LobProof.v
theories/LobProof2.v
theories/LobProof3.v
theories/LobGen.v
theories/LobProof4.v
theories/LobProof5.v
theories/LobSafe.v
theories/LobWitness.v
theories/LobLoop.v
theories/PropertiesLob.v
theories/DirModel.v
theories/DirSpec.v
theories/DirLin.v
theories/DirProof.v
theories/DirEig.v
theories/DirRef.v
theories/PropertiesDir.v
theories/VmlModel.v
theories/PropertiesVml.v
theories/RoundSpec.v
theories/RoundProof.v
theories/RoundSum.v
theories/PropertiesRound.v
theories/ConvSpec.v
theories/ConvProof.v
theories/PropertiesConv.v
theories/PcgSpec.v
theories/PcgProof.v
theories/PcgPre.v
theories/PropertiesPcg.v
theories/PropertiesNamed.v
theories/PropertiesMpiFail.v
theories/ViewModel.v
theories/ViewSpec.v
theories/ViewProof.v
theories/PropertiesView.v
theories/PrintModel.v
theories/PrintSpec.v
theories/PrintProof.v
theories/PropertiesPrint.v
theories/IoLayout.v
theories/PropertiesLayout.v
theories/PropertiesGaps.v
theories/PropertiesGaps2.v
theories/PropertiesGaps3.v
theories/PropertiesGaps4.v
theories/PropertiesGaps5.v
theories/VecMoreModel.v
theories/PropertiesVecMore.v
theories/SparseSetModel.v
theories/PropertiesSparseSet.v
theories/PropertiesConstruct.v
theories/RoundOpsSpec.v
theories/RoundOps.v
theories/PropertiesRoundOps.v
theories/Int32Model.v
theories/Int32Spec.v
theories/PropertiesInt32.v
theories/VendorModel.v
theories/PropertiesVendor.v
theories/AliasModel.v
theories/PropertiesAlias.v
theories/MpiLifeModel.v
theories/PropertiesMpiLife.v
theories/EnergySpec.v
theories/EnergyProof.v
theories/PropertiesEnergy.v
theories/EnergyProof2.v
theories/EnergyProof3.v
theories/PropertiesEnergy2.v
theories/EnergyProof4.v
theories/PropertiesEnergy3.v
theories/HistModel.v
theories/HistSpec.v
theories/HistProof.v
theories/HistProof2.v
theories/PropertiesHist.v
theories/StreamModel.v
theories/StreamSpec.v
theories/StreamProof.v
theories/PropertiesStream.v
theories/BindModel.v
theories/BindSpec.v
theories/BindProof.v
theories/PropertiesBind.v
theories/LifeModel.v
theories/LifeSpec.v
theories/LifeProof.v
theories/PropertiesLife.v
