-Q theories Verif

theories/Base.v
theories/TimeOrder.v
theories/KeyGen.v
theories/Manager.v
theories/ManagerSpec.v
theories/ManagerProofs.v
theories/ManagerProofs2.v
theories/ManagerProofs3.v
theories/KeyGenProofs.v
theories/TimeInst.v
theories/TimeB64.v
theories/Props_KeyGen.v
theories/Props_Manager.v
theories/Num.v
theories/Spline.v
theories/LinSpec.v
theories/SplineSpec.v
theories/SplineProofs.v
theories/Props_Spline.v
theories/Container.v
theories/ContainerSpec.v
theories/ContainerProofs.v
theories/Props_Container.v
theories/SetDataSpec.v
theories/SetDataSys.v
theories/SetDataProofs.v
theories/SetDataExist.v
theories/SetDataTraj.v
theories/SetDataTop.v
theories/Props_SetData.v
theories/SplineCurves.v
theories/Props_SplineCurves.v
theories/Sampling.v
theories/SamplingSpec.v
theories/SamplingProofs.v
theories/Props_Sampling.v
theories/HermiteE3.v
theories/HermiteSpec.v
theories/HermiteE3Proofs.v
theories/Props_HermiteE3.v
theories/Quat.v
theories/QuatSpec.v
theories/QuatProofs.v
theories/QuatLog.v
theories/HermiteSE3.v
theories/HermiteSE3Spec.v
theories/HermiteSE3Proofs.v
theories/HermiteSE3Curve.v
theories/HermiteSE3Motion.v
theories/Props_HermiteSE3.v
theories/ManagerMap.v
theories/NumB64.v
theories/HermiteB64.v
theories/Props_Binary64.v
theories/Csv.v
theories/Props_Csv.v
theories/Export.v
theories/Props_Export.v
theories/Discrete.v
theories/DiscreteSpec.v
theories/DiscreteProofs.v
theories/Props_Discrete.v
theories/Composition.v
theories/CompositionProofs.v
theories/Props_Composition.v
theories/ManagerCopy.v
theories/Props_Copy.v
theories/Ros.v
theories/Props_Ros.v
theories/SetDataUnique.v
theories/SetDataEnergy.v
theories/Props_SetData2.v
theories/Props_Hermite2.v
theories/Slerp2.v
theories/Se2.v
theories/Props_Piecewise.v
theories/Props_Slerp2.v
theories/Props_Sampling2.v
theories/SlerpSE3.v
theories/Props_SlerpSE3.v
theories/Props_Clear.v
theories/HermiteErr.v
theories/Props_Rounding.v
theories/Props_RoundFit.v
theories/Pose2Expr.v
theories/Pose2Proofs.v
theories/Props_Jacobian.v
theories/Se3.v
theories/Props_Se3.v
theories/Velocity.v
theories/Props_Velocity.v
theories/Printing.v
theories/Props_Printing.v
theories/SplineErr.v
theories/Props_RoundSpline.v
theories/BasicSolver.v
theories/SetDataBasic.v
theories/Props_Units.v
theories/ColPiv.v
theories/ColPivQ.v
theories/Props_ColPiv.v
theories/RepoTests.v
theories/Props_Special.v
theories/Props_RoundContainer.v
theories/Digits.v
theories/DigitsProofs.v
theories/Props_Digits.v
theories/Matlab.v
theories/Props_Matlab.v
theories/QuatDist.v
theories/QuatErr.v
theories/QuatLip.v
theories/Props_RoundSE3.v
theories/Props_HalfTurn.v
theories/Props_RoundAngular.v
theories/Props_NonFinite.v
theories/Props_Speed.v
theories/Props_Reverse.v
theories/Props_Body.v
theories/Props_Sampled.v
theories/Props_SplineRate.v
theories/Props_RoundSE3Fit.v
theories/Props_Tracking.v
theories/Props_SplineAccel.v
theories/Props_SplineDecay.v
theories/Tolerance.v
theories/Props_Tolerance.v
theories/Props_Noise.v
theories/Props_SplineNoise.v
theories/Props_EndToEnd.v
theories/Props_DiscreteSampled.v
theories/Props_Vehicle.v
theories/Props_SemiSampled.v
theories/Props_SemiTurned.v
theories/Props_TurnNoise.v
theories/Props_SplineSpeed.v
theories/Props_Forward.v
theories/Props_Linear.v
theories/Props_Accel.v
