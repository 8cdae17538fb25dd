-Q theories Verif
theories/M_Base.v
theories/M_Canonical.v
theories/M_Cartesian.v
theories/M_Coupling.v
theories/M_Cython.v
theories/M_Dmp.v
theories/M_DmpObject.v
theories/M_Dtype.v
theories/M_Dual.v
theories/M_Files.v
theories/M_FinalVelocity.v
theories/M_Float.v
theories/M_FloatDmp.v
theories/M_Forcing.v
theories/M_Heap.v
theories/M_IO.v
theories/M_IOClasses.v
theories/M_Kinematics.v
theories/M_Lasa.v
theories/M_Linalg.v
theories/M_Matrix.v
theories/M_MinJerk.v
theories/M_Plot.v
theories/M_PotentialField.v
theories/M_Prelude.v
theories/M_ProMP.v
theories/M_Quaternion.v
theories/M_RH5.v
theories/M_Ridge.v
theories/M_Rigid.v
theories/M_Robot.v
theories/M_Simulation.v
theories/M_SpringDamper.v
theories/M_StateCache.v
theories/M_StateFollowing.v
theories/M_StateObject.v
theories/M_StateSpace.v
theories/M_Toy1d.v
theories/P_Bayes.v
theories/P_Bounded.v
theories/P_Canonical.v
theories/P_Cartesian.v
theories/P_CartesianHistory.v
theories/P_Components.v
theories/P_Conditioning.v
theories/P_Continuity.v
theories/P_Converge.v
theories/P_Coupled.v
theories/P_CoupledAffine.v
theories/P_Cython.v
theories/P_CythonRotation.v
theories/P_CythonValues.v
theories/P_Disturbed.v
theories/P_DisturbedAll.v
theories/P_DmpAffine.v
theories/P_DmpLinear.v
theories/P_DmpObject.v
theories/P_DmpScale.v
theories/P_DmpStep.v
theories/P_Dtype.v
theories/P_Dual.v
theories/P_DualObject.v
theories/P_Files.v
theories/P_FinalVelocity.v
theories/P_FinalVelocityObject.v
theories/P_Float.v
theories/P_FloatDmp.v
theories/P_FloatRun.v
theories/P_Forcing.v
theories/P_Frames.v
theories/P_Guided.v
theories/P_Heap.v
theories/P_IO.v
theories/P_Lasa.v
theories/P_Loops.v
theories/P_Matrix.v
theories/P_Memory.v
theories/P_MinJerk.v
theories/P_Moving.v
theories/P_Ode.v
theories/P_OdeSolution.v
theories/P_Order.v
theories/P_Orient.v
theories/P_Pace.v
theories/P_ProMP.v
theories/P_ProMPFrames.v
theories/P_ProMPOne.v
theories/P_Quaternion.v
theories/P_RH5.v
theories/P_Rate.v
theories/P_Reproduction.v
theories/P_Rigid.v
theories/P_Runs.v
theories/P_Sensed.v
theories/P_Smooth.v
theories/P_Sphere.v
theories/P_Stability.v
theories/P_StateSpaceLin.v
theories/P_Superposition.v
theories/P_Together.v
theories/P_Toy1d.v
theories/P_Turning.v
theories/P_TurningDemo.v
theories/P_TurningLearn.v
theories/P_TurningOde.v
theories/P_TurningRun.v
theories/Properties_Agree.v
theories/Properties_Attributes.v
theories/Properties_Bayes.v
theories/Properties_Blend.v
theories/Properties_Cartesian.v
theories/Properties_CartesianBlend.v
theories/Properties_CartesianHistory.v
theories/Properties_CartesianMore.v
theories/Properties_CartesianMoving.v
theories/Properties_CartesianObject.v
theories/Properties_CartesianPace.v
theories/Properties_CartesianRate.v
theories/Properties_CartesianSensed.v
theories/Properties_CartesianSmooth.v
theories/Properties_Components.v
theories/Properties_Conditioning.v
theories/Properties_Continuity.v
theories/Properties_ContinuityAll.v
theories/Properties_Coupled.v
theories/Properties_CoupledRuns.v
theories/Properties_Coupling.v
theories/Properties_Cython.v
theories/Properties_DemoOrder.v
theories/Properties_DistanceFrames.v
theories/Properties_Dmp.v
theories/Properties_DmpObject.v
theories/Properties_DmpState.v
theories/Properties_Dtype.v
theories/Properties_DualArm.v
theories/Properties_DualBlend.v
theories/Properties_DualContinuity.v
theories/Properties_DualExamples.v
theories/Properties_DualFrames.v
theories/Properties_DualMoving.v
theories/Properties_DualObject.v
theories/Properties_DualOde.v
theories/Properties_DualRate.v
theories/Properties_DualReproduction.v
theories/Properties_DualRuns.v
theories/Properties_DualSensed.v
theories/Properties_Equivariance.v
theories/Properties_Exchange.v
theories/Properties_Feedback.v
theories/Properties_Files.v
theories/Properties_FinalVelocity.v
theories/Properties_FinalVelocityObject.v
theories/Properties_FinalVelocityRate.v
theories/Properties_FinalVelocitySensed.v
theories/Properties_Float.v
theories/Properties_FloatDmp.v
theories/Properties_Forcing.v
theories/Properties_Frames.v
theories/Properties_Goal.v
theories/Properties_Goto.v
theories/Properties_Guided.v
theories/Properties_GuidedCartesian.v
theories/Properties_Heap.v
theories/Properties_IO.v
theories/Properties_IOFiles.v
theories/Properties_InverseKinematics.v
theories/Properties_Kinematics.v
theories/Properties_Lasa.v
theories/Properties_Memory.v
theories/Properties_MinJerk.v
theories/Properties_MinJerkFrames.v
theories/Properties_MoreCertain.v
theories/Properties_Moving.v
theories/Properties_MovingFinalVelocity.v
theories/Properties_MovingSpring.v
theories/Properties_Obstacle.v
theories/Properties_ObstacleFrames.v
theories/Properties_Ode.v
theories/Properties_Order.v
theories/Properties_Orientation.v
theories/Properties_Overshoot.v
theories/Properties_Pace.v
theories/Properties_PaceSpring.v
theories/Properties_Plot.v
theories/Properties_PoseCoupling.v
theories/Properties_PoseError.v
theories/Properties_PoseReproduction.v
theories/Properties_PotentialField.v
theories/Properties_PotentialPlot.v
theories/Properties_Prefix.v
theories/Properties_PrefixFloat.v
theories/Properties_ProMP.v
theories/Properties_ProMPEM.v
theories/Properties_ProMPFrames.v
theories/Properties_ProMPImitate.v
theories/Properties_ProMPLikelihood.v
theories/Properties_ProMPSampling.v
theories/Properties_ProMPVelocity.v
theories/Properties_ProMPWeights.v
theories/Properties_Quaternion.v
theories/Properties_RH5.v
theories/Properties_RH5Names.v
theories/Properties_Rate.v
theories/Properties_Regularization.v
theories/Properties_Reproduction.v
theories/Properties_Ridge.v
theories/Properties_Robot.v
theories/Properties_Robust.v
theories/Properties_RobustAll.v
theories/Properties_Separate.v
theories/Properties_Settle.v
theories/Properties_Simulation.v
theories/Properties_SmoothScaling.v
theories/Properties_SpringDamper.v
theories/Properties_SpringFrames.v
theories/Properties_SpringHistory.v
theories/Properties_SpringOde.v
theories/Properties_SpringRate.v
theories/Properties_SpringSensed.v
theories/Properties_SpringSettle.v
theories/Properties_Stability.v
theories/Properties_StateCache.v
theories/Properties_StateConfigure.v
theories/Properties_StateCoupling.v
theories/Properties_StateFollowing.v
theories/Properties_StateFrames.v
theories/Properties_StateOde.v
theories/Properties_StateRest.v
theories/Properties_StateSpace.v
theories/Properties_StateSpaceExact.v
theories/Properties_Stored.v
theories/Properties_Superposition.v
theories/Properties_SuperpositionAll.v
theories/Properties_Together.v
theories/Properties_TogetherCartesian.v
theories/Properties_TogetherDual.v
theories/Properties_TogetherFinalVelocity.v
theories/Properties_TogetherSpring.v
theories/Properties_Toy1d.v
theories/Properties_TrajectoryCoupling.v
theories/Properties_TurnOde.v
theories/Properties_ViaPoints.v
theories/S_Attributes.v
theories/S_Coupled.v
theories/S_Dmp.v
theories/S_Float.v
theories/S_FloatDmp.v
theories/S_Frames.v
theories/S_Heap.v
theories/S_IO.v
theories/S_Json.v
theories/S_Lasa.v
theories/S_Loops.v
theories/S_Memory.v
theories/S_ProMPEM.v
theories/S_ProMPFrames.v
theories/S_Rigid.v
theories/S_Rotation.v
theories/S_Stability.v
theories/S_StateSpace.v
theories/S_Turning.v
