-Q theories Verif
theories/Ops.v
theories/Sums.v
theories/Grid.v
theories/Stencil.v
theories/ScalarModel.v
theories/ScalarRefine.v
theories/ScalarForward.v
theories/ScalarBackward.v
theories/DualNum.v
theories/ScalarAdjoint.v
theories/ScalarFunc.v
theories/ScalarApi.v
theories/ScalarGrad.v
theories/ScalarEx.v
theories/PropScalarGrad.v
theories/ScalarMore.v
theories/PyBackend.v
theories/ScalarMore2.v
theories/ScalarPhys.v
theories/ScalarReach.v
theories/ScalarEx2.v
theories/ScalarUser.v
theories/PropScalarRun.v
theories/PropScalarPhys.v
theories/StencilOrder.v
theories/PropStencil.v
theories/GeomModel.v
theories/Geom.v
theories/Geom2.v
theories/SetupModel.v
theories/GeomLocs.v
theories/GeomEx.v
theories/PropGeom.v
theories/Param.v
theories/ShotsModel.v
theories/Shots.v
theories/ShotsRun.v
theories/ShotsThm.v
theories/ShotsEx.v
theories/PropShots.v
theories/Safety.v
theories/PropSafety.v
theories/BornModel.v
theories/BornSim.v
theories/BornBack.v
theories/BornThm.v
theories/BornGrad.v
theories/BornPy.v
theories/BornEx.v
theories/PropBorn.v
theories/DoubleModel.v
theories/DoubleBack.v
theories/DoubleStore.v
theories/DoubleEx.v
theories/PropDouble.v
theories/BornStore.v
theories/PropBornStore.v
theories/RealModel.v
theories/RealThm.v
theories/PropReal.v
theories/StorageModel.v
theories/Storage.v
theories/Storage2.v
theories/StorageThm.v
theories/PropStorage.v
theories/Stag.v
theories/StagAdj.v
theories/Loop.v
theories/StagKernel.v
theories/StagCell.v
theories/StagRefine.v
theories/StagGrad.v
theories/StagPy.v
theories/AcousticModel.v
theories/AcousticThm.v
theories/AcousticPy.v
theories/AcousticEx.v
theories/PropAcoustic.v
theories/ElasticModel.v
theories/ElasticThm.v
theories/ElasticPy.v
theories/ElasticEx.v
theories/PropElastic.v
theories/Hicks.v
theories/HicksThm.v
theories/HicksCells.v
theories/HicksFold.v
theories/HicksEx.v
theories/PropHicks.v
theories/Resample.v
theories/ResampleThm.v
theories/PropResample.v
theories/ScalarEqs.v
theories/StagEqs.v
theories/StagRun.v
theories/StagRunInst.v
theories/StagRunEx.v
theories/PropStagRun.v
theories/EqsUser.v
theories/PropEqs.v
theories/AbiTables.v
theories/Abi.v
theories/AbiThm.v
theories/PropAbi.v
theories/Energy.v
theories/EnergyReal.v
theories/PropEnergy.v
theories/Names.v
theories/NamesThm.v
theories/PropNames.v
theories/StagEnergy.v
theories/StagSetup.v
theories/StagStable.v
theories/StagUnstable.v
theories/StagEnergyEx.v
theories/PropStagEnergy.v
theories/StagAvg.v
theories/PropPrepare.v
theories/StagParam.v
theories/StagShotsModel.v
theories/StagShots.v
theories/StagShotsRun.v
theories/StagShotsThm.v
theories/StagShotsInst.v
theories/StagShotsEx.v
theories/PropStagShots.v
theories/StagSafety.v
theories/StagSafetyInst.v
theories/PropStagSafety.v
theories/StagPhys.v
theories/StagRecip.v
theories/StagPhysRun.v
theories/StagPhysInst.v
theories/StagPhysEx.v
theories/PropStagPhys.v
theories/StagReach.v
theories/StagReachInst.v
theories/StagReachEx.v
theories/PropStagReach.v
theories/UserModel.v
theories/UserThm.v
theories/UserCrop.v
theories/UserMain.v
theories/UserEx.v
theories/PropUser.v
theories/BornRun.v
theories/BornRun2.v
theories/BornRunEx.v
theories/PropBornRun.v
theories/UserEqs.v
theories/UserStagModel.v
theories/UserStag.v
theories/UserAcoustic.v
theories/UserStagEx.v
theories/UserElastic.v
theories/UserElasticEx.v
theories/UserStep.v
theories/PropUserAcoustic.v
theories/PropUserElastic.v
theories/PropUserEqs.v
theories/Threads.v
theories/GpuModel.v
theories/GpuLaunch.v
theories/GpuFwd.v
theories/GpuLocs.v
theories/GpuForward.v
theories/GpuBwd.v
theories/GpuBackward.v
theories/GpuThm.v
theories/PropGpu.v
theories/StreamModel.v
theories/StreamThm.v
theories/StreamProg.v
theories/StreamEx.v
theories/PropStream.v
theories/Deriv.v
theories/DerivScalar.v
theories/StagDeriv.v
theories/DerivBorn.v
theories/DerivObj.v
theories/DerivEx.v
theories/PropDeriv.v
theories/Barrier.v
theories/GpuCompModel.v
theories/GpuComp.v
theories/GpuComp2.v
theories/GpuComp3.v
theories/PropGpuComp.v
theories/StagGpuModel.v
theories/StagGpuCell.v
theories/StagGpuLaunch.v
theories/StagGpuFoot.v
theories/StagGpuPhase.v
theories/StagGpuLocs.v
theories/StagGpuComb.v
theories/StagGpuRun.v
theories/StagGpuThm.v
theories/PropStagGpu.v
theories/BornGpuModel.v
theories/BornGpuLift.v
theories/BornGpuFwd.v
theories/BornGpuForward.v
theories/BornGpuBwd.v
theories/BornGpuBackward.v
theories/BornGpuThm.v
theories/PropBornGpu.v
theories/UserBornModel.v
theories/UserRegular.v
theories/UserBorn.v
theories/UserUnique.v
theories/UserBornLin.v
theories/UserBornEx.v
theories/PropUserBorn.v
theories/BornScGpuModel.v
theories/BornScGpu.v
theories/BornScGpuThm.v
theories/PropBornScGpu.v
theories/WaveletModel.v
theories/Wavelet.v
theories/PropWavelet.v
theories/UserGpuModel.v
theories/UserGpu.v
theories/PropUserGpu.v
theories/UserGradModel.v
theories/UserGrad.v
theories/UserGradEx.v
theories/PropUserGrad.v
theories/UserBornGradModel.v
theories/UserBornGrad.v
theories/UserBornGradEx.v
theories/PropUserBornGrad.v
