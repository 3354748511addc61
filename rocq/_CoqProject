-Q theories Verif
theories/PyBase.v
theories/CSum.v
theories/NpFFT.v
theories/FFTProofs.v
theories/NumPy.v
theories/GridModel.v
theories/GridSpec.v
theories/GridProofs.v
theories/GridHeap.v
theories/GridHeapProofs.v
theories/PropsGrid.v
theories/EnergyModel.v
theories/LaserSpec.v
theories/GridObs.v
theories/EnergyProofs.v
theories/AngularProofs.v
theories/LaserModel.v
theories/OpticsModel.v
theories/LaserOps.v
theories/LaserInv.v
theories/LaserInitProofs.v
theories/LaserStepProofs.v
theories/PropagateProofs.v
theories/HistoryProofs.v
theories/OpticsProofs.v
theories/OpticsProofs2.v
theories/LaserExamples.v
theories/PropsLaser1.v
theories/SolverSpec.v
theories/SolverProofs.v
theories/PropLaws.v
theories/CacheProofs.v
theories/CacheBackend.v
theories/ResampleProofs.v
theories/ResampleExamples.v
theories/PropsLaser2.v
theories/NpMath.v
theories/NpMathProofs.v
theories/AnalysisModel.v
theories/DataModel.v
theories/AnalysisSpec.v
theories/FromArrayModel.v
theories/FromArrayProofs.v
theories/FromArraySpec.v
theories/FromArrayProps.v
theories/DataProofs.v
theories/MomentProofs.v
theories/TransDataProofs.v
theories/SpectralSpec.v
theories/SpectralDataProofs.v
theories/SpectralProps.v
theories/PropsData.v
theories/ZernikeModel.v
theories/ZernikeSpec.v
theories/ZernikeProofs.v
theories/ZernikeOrtho.v
theories/PropsZernike.v
theories/GSModel.v
theories/GSSpec.v
theories/GSProofs.v
theories/GSLaws.v
theories/GSFinal.v
theories/PropsGS.v
theories/SpeckleModel.v
theories/SpeckleSpec.v
theories/SpeckleProofs.v
theories/SpeckleSeries.v
theories/SpeckleBound.v
theories/SpeckleMore.v
theories/SpeckleFacts.v
theories/PropsSpeckle.v
theories/ModesModel.v
theories/ModesSpec.v
theories/ModesProofs.v
theories/PropsModes.v
theories/OpenPMDModel.v
theories/AnalysisExamples.v
theories/FileSpec.v
theories/FileProofs.v
theories/PropsFiles.v
theories/OpenPMDProofs.v
theories/PropsIO.v
theories/PlotProofs.v
theories/SpectrumProofs.v
theories/SpectrumModel.v
theories/FullSpectrumSpec.v
theories/FullSpectrumProofs.v
theories/FullFieldModel.v
theories/FullFieldSpec.v
theories/FullFieldProofs.v
theories/PropsFullField.v
theories/InsightModel.v
theories/InsightSpec.v
theories/InsightProofs.v
theories/PropsInsight.v
theories/OpenPMDProfileModel.v
theories/OpenPMDProfileSpec.v
theories/OpenPMDProfileProofs.v
theories/PropsOpenPMDProfile.v
theories/TransShapeSpec.v
theories/TransShapeProofs.v
theories/PropsTransShape.v
theories/GaussInt.v
theories/ModeOrthoSpec.v
theories/HGOrtho.v
theories/HGSuper.v
theories/VecPotSpec.v
theories/VecPotProofs.v
theories/PropsVecPot.v
theories/ZModel.v
theories/ZSpec.v
theories/ZProofs.v
theories/ZShift.v
theories/PropsZ.v
theories/PolarSpec.v
theories/LGOrtho.v
theories/PropsLG.v
theories/DelayProofs.v
theories/PropsDelay.v
theories/ABCDSpec.v
theories/ABCDProofs.v
theories/ABCDLaser.v
theories/PropsABCD.v
theories/RaySpec.v
theories/RayProofs.v
theories/PropsRay.v
theories/WorldModel.v
theories/WorldSpec.v
theories/WorldProofs.v
theories/WorldExamples.v
theories/PropsWorld.v
theories/HilbertModel.v
theories/HilbertProofs.v
theories/CreateAxesProofs.v
theories/PropsHilbert.v
theories/ConvergeSpec.v
theories/ConvergeProofs.v
theories/ConvergeLaser.v
theories/PropsConverge.v
theories/AngleSpec.v
theories/AngleProofs.v
theories/PropsAngle.v
theories/UnwrapModel.v
theories/UnwrapProofs.v
theories/PropsUnwrap.v
theories/DurConvSpec.v
theories/DurConvProofs.v
theories/DurConvLaser.v
theories/GaussMoments.v
theories/GaussLaserSpec.v
theories/GaussLaser.v
theories/PropsDurConv.v
theories/SpecConvSpec.v
theories/SpecConvProofs.v
theories/SpecConvLaser.v
theories/GaussFT.v
theories/GaussSpectrum.v
theories/PropsSpecConv.v
theories/WaveSpec.v
theories/WaveProofs.v
theories/WaveEq.v
theories/WaveSolver.v
theories/WaveDecomp.v
theories/WaveRt.v
theories/BesselODE.v
theories/WaveMain.v
theories/PropsWave.v
theories/LtiSpec.v
theories/LtiProofs.v
theories/LtiStep.v
theories/LtiMain.v
theories/LtiNorm.v
theories/LtiExamples.v
theories/PropsLti.v
theories/PropsLti2.v
theories/SepSpec.v
theories/SepProofs.v
theories/PropsSep.v
theories/PeakSpec.v
theories/PeakProofs.v
theories/PeakInst.v
theories/PeakRt.v
theories/PropsPeak.v
theories/RotProofs.v
theories/PropsRot.v
theories/LedgerSpec.v
theories/LedgerProofs.v
theories/PropsLedger.v
theories/PropsModeOrtho.v
theories/PropsSpectrum.v
theories/DurationProofs.v
theories/FrequencyProofs.v
theories/FrequencyMean.v
theories/CreateGridProofs.v
theories/FrequencyExamples.v
theories/ReadOnlyProofs.v
theories/PropsAnalysis.v
theories/ProfileModel.v
theories/ProfileSpec.v
theories/ProfileProofs.v
theories/PropsProfile.v
theories/AnalyticModel.v
theories/TransverseSpec.v
theories/TransverseProofs.v
theories/AnalyticProofs.v
theories/LGProofs.v
theories/ParaxialSpec.v
theories/ComplexCalc.v
theories/ParaxialProofs.v
theories/ParaxialLG.v
theories/PropsAnalytic.v
theories/FloatModel.v
theories/FloatSpec.v
theories/FloatProofs.v
theories/FloatNormModel.v
theories/FloatNormProofs.v
theories/PropsFloat.v
theories/HGConvSpec.v
theories/HGConv.v
theories/HGConv2.v
theories/PropsHGConv.v
theories/MirrorSpec.v
theories/MirrorProofs.v
theories/MirrorWave.v
theories/MirrorRtSpec.v
theories/MirrorRtProofs.v
theories/PropsMirror.v
theories/ScaleSpec.v
theories/ScaleProofs.v
theories/ScaleWave.v
theories/PropsScale.v
theories/TransSpec.v
theories/TransProofs.v
theories/TransWave.v
theories/PropsTrans.v
theories/MoveSpec.v
theories/MoveProofs.v
theories/MoveMain.v
theories/PropsMove.v
theories/MoveFreq.v
theories/PropsMoveFreq.v
theories/ScaleFreq.v
theories/PropsScaleFreq.v
theories/NormFreq.v
theories/PropsNormFreq.v
theories/PhaseReads.v
theories/PropsPhase.v
theories/MirrorReads.v
theories/PropsMirrorReads.v
theories/MirrorRtReads.v
theories/PropsMirrorRtReads.v
theories/PropsTransSpectrum.v
