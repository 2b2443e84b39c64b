-Q theories Verif
theories/Base.v
theories/Num.v
theories/Sparse.v
theories/Cmp.v
theories/Vec.v
theories/VecFacts.v
theories/Order.v
theories/VecFacts2.v
theories/VecFacts3.v
theories/F64Facts.v
theories/RSum.v
theories/VecReal.v
theories/CmpFacts.v
theories/VecFacts4.v
theories/PropsVec.v
theories/Mat.v
theories/MatFacts.v
theories/MatFacts2.v
theories/MatFacts3.v
theories/MatFacts4.v
theories/PropsMat.v
theories/Arr.v
theories/WorkingSet.v
theories/WorkingSetFacts.v
theories/Registry.v
theories/PropsWs.v
theories/TrustRadius.v
theories/TrustRadiusFacts.v
theories/PropsTrust.v
theories/Ring.v
theories/StepRule.v
theories/StepRuleFacts.v
theories/Flags.v
theories/Refcount.v
theories/PropsStep.v
theories/PropsTimer.v
theories/OrdArith.v
theories/Feas.v
theories/FeasFacts.v
theories/OptFacts.v
theories/MeritFacts.v
theories/PropsFeas.v
theories/Problem.v
theories/ProblemFacts.v
theories/PropsProblem.v
theories/Settings.v
theories/SettingsFacts.v
theories/SettingsFile.v
theories/PropsSettings.v
theories/Scale.v
theories/ScaleFacts.v
theories/ScaleReal.v
theories/ScaleAuto.v
theories/PropsScale.v
theories/QuasiNewton.v
theories/QnMath.v
theories/QnFacts.v
theories/QnReal.v
theories/QnSr1.v
theories/QnBlocks.v
theories/QnWhole.v
theories/QnWholeReal.v
theories/PropsQn.v
theories/PropsTight.v
theories/Restoration.v
theories/RestorationFacts.v
theories/RestorationReal.v
theories/PropsRest.v
theories/Solver.v
theories/SolverFacts.v
theories/SolverIter.v
theories/SolverLoop.v
theories/SolverEvents.v
theories/SolverCoh.v
theories/SolverToy.v
theories/PropsSolver.v
theories/Polish.v
theories/PropsPolish.v
theories/FixedVar.v
theories/PropsFixed.v
theories/PropsTight2.v
theories/Preproc.v
theories/PreprocFacts.v
theories/PreprocReal.v
theories/PreprocTrans.v
theories/Eval.v
theories/PropsPre.v
theories/PropsPre2.v
theories/Restore.v
theories/RestoreFacts.v
theories/RestoreLoops.v
theories/RestoreReal.v
theories/RestoreMain.v
theories/PropsRestore.v
theories/PropsRestore2.v
theories/Cauchy.v
theories/CauchyFacts.v
theories/PropsCauchy.v
theories/DualEst.v
theories/DualEstFacts.v
theories/PropsDualEst.v
theories/Steihaug.v
theories/SteihaugFacts.v
theories/PropsSteihaug.v
theories/LineSearch.v
theories/LineSearchFacts.v
theories/LineExactFacts.v
theories/PropsLineSearch.v
theories/WorkingStep.v
theories/WorkingStepFacts.v
theories/WorkingStepReal.v
theories/NewtonReal.v
theories/SocReal.v
theories/PropsWorkingStep.v
theories/AugJac.v
theories/AugJacFacts.v
theories/AugJacUpper.v
theories/AugJacMain.v
theories/Gauss.v
theories/AugJacReal.v
theories/PropsAugJac.v
theories/AugJacRed.v
theories/AugJacRed2.v
theories/AugJacRed3.v
theories/AugJacRedReal.v
theories/PropsAugJac2.v
theories/AugJacDir.v
theories/AugJacQR.v
theories/AugJacQRFacts.v
theories/AugJacQRReal.v
theories/PropsAugJac3.v
theories/StdCauchy.v
theories/StdCauchyFacts.v
theories/StdCauchyReal.v
theories/StdCauchyLP.v
theories/StdCauchyReach.v
theories/PropsStdCauchy.v
theories/StdCauchyWS.v
theories/StdCauchyWS2.v
theories/PropsStdCauchy2.v
theories/StdCauchyDual.v
theories/PropsStdCauchy3.v
theories/StdCauchyInf.v
theories/PropsStdCauchy4.v
theories/Parametric.v
theories/ParametricFacts.v
theories/PropsParametric.v
theories/CauchyStep.v
theories/PropsCauchyStep.v
theories/Lsqr.v
theories/LsqrFacts.v
theories/PropsLsqr.v
theories/GaussNewton.v
theories/GaussNewtonFacts.v
theories/GaussNewtonReal.v
theories/PropsGaussNewton.v
theories/LsqFunc.v
theories/PropsLsqFunc.v
theories/DerivCheck.v
theories/PropsDeriv.v
theories/Measure.v
theories/PropsMeasure.v
