-Q theories Verif
theories/PyBase.v
theories/PyBaseFacts.v
theories/Sampler.v
theories/SamplerSpec.v
theories/SamplerDemo.v
theories/SamplerFacts.v
theories/MyulaProof.v
theories/LoopProof.v
theories/ScheduleProof.v
theories/SamplerThms.v
theories/PxMalaProof.v
theories/MalaThms.v
theories/SamplerMain.v
theories/WorksProof.v
theories/P_Samplers.v
theories/CVec.v
theories/RSort.v
theories/Thresh.v
theories/ThreshSpec.v
theories/ThreshProof.v
theories/P_Thresh.v
theories/TrigSum.v
theories/Quad.v
theories/QuadSpec.v
theories/QuadProof.v
theories/QuadMain.v
theories/P_Quad.v
theories/Utils.v
theories/UtilsSpec.v
theories/UtilsProof.v
theories/P_Utils.v
theories/OpSpec.v
theories/Prior.v
theories/PriorSpec.v
theories/PriorProof.v
theories/P_Prior.v
theories/Forward.v
theories/Mcmc.v
theories/McmcSpec.v
theories/McmcProof.v
theories/FwdProof.v
theories/P_Forward.v
theories/StepProof.v
theories/SkProof.v
theories/P_Mcmc.v
theories/Measure.v
theories/MeasSpec.v
theories/MeasProof.v
theories/P_Meas.v
theories/Transforms.v
theories/TransSpec.v
theories/P_Trans.v
theories/P_Works.v
theories/Objects.v
theories/ObjSpec.v
theories/ObjProof.v
theories/P_Objects.v
theories/P_Keys.v
theories/Uncertainty.v
theories/UncProof.v
theories/P_Unc.v
theories/Takahashi.v
theories/P_Taka.v
theories/Plotting.v
theories/P_Plot.v
theories/Stdout.v
theories/P_Stdout.v
theories/Arrays.v
theories/ArrSpec.v
theories/ArrProof.v
theories/P_Arrays.v
theories/HSampler.v
theories/HSampSpec.v
theories/HSampProof.v
theories/HMcmc.v
theories/HMcmcSpec.v
theories/HMcmcProof.v
theories/P_HSampler.v
theories/HOps.v
theories/P_HOps.v
theories/ExpData.v
theories/ExpSpec.v
theories/ExpProof.v
theories/P_ExpTopo.v
theories/P_ExpTopoB.v
theories/P_ExpPaths.v
theories/P_ExpLens.v
theories/ExpRun.v
theories/ExpRunSpec.v
theories/P_ExpRun.v
theories/ExpPlot.v
theories/ExpPlotSpec.v
theories/P_ExpPlot.v
theories/P_ExpPlotB.v
theories/P_ExpPlotC.v
theories/ExpLink.v
theories/P_ExpLink.v
theories/P_QuadB.v
theories/P_TestsA.v
theories/P_TestsB.v
theories/Download.v
theories/P_Download.v
theories/StableProof.v
theories/P_Stable.v
theories/Calls.v
theories/CallsSpec.v
theories/CallsProof.v
theories/P_Calls.v
theories/Ieee.v
theories/IeeeProof.v
theories/P_Ieee.v
theories/ParamSpec.v
theories/ParamProof.v
theories/RepSpec.v
theories/ExactProof.v
theories/PermProof.v
theories/P_Param.v
theories/P_IeeeLim.v
theories/MomentSpec.v
theories/MomentProof.v
theories/P_Moments.v
theories/SkDivProof.v
theories/P_SkDiv.v
theories/P_ExpOpen.v
theories/RoundProof.v
theories/P_Round.v
theories/P_CallsB.v
theories/FloatOps.v
theories/P_FloatOps.v
theories/P_FloatOpsB.v
theories/FloatProof.v
theories/FloatNear.v
theories/P_FloatNear.v
theories/FloatSk.v
theories/FloatSkProof.v
theories/P_FloatSk.v
theories/P_FloatSkB.v
theories/LimProof.v
theories/LimOps.v
theories/LimRun.v
theories/LimTie.v
theories/LimInst.v
theories/LimSpec.v
theories/LimEnd.v
theories/LimSet.v
theories/P_Limit.v
theories/P_LimitB.v
theories/P_PathStep.v
theories/FloatUnc.v
theories/FloatUncProof.v
theories/P_FloatUnc.v
theories/P_FloatUncB.v
theories/P_FloatUncC.v
theories/P_FloatUncD.v
theories/ErgSpec.v
theories/ErgProof.v
theories/P_Ergodic.v
theories/Args.v
theories/ArgsRun.v
theories/ArgsSpec.v
theories/ArgsProof.v
theories/P_Args.v
theories/TuneSpec.v
theories/TuneProof.v
theories/P_Tune.v
theories/ExpTruth.v
theories/P_ExpTruth.v
theories/TurnSpec.v
theories/TurnProof.v
theories/P_Turn.v
theories/FarSpec.v
theories/P_Far.v
theories/FarCSpec.v
theories/P_FarC.v
theories/SteepSpec.v
theories/P_Steep.v
theories/P_SteepT.v
