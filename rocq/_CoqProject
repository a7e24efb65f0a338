-Q theories Verif
theories/Prelude.v
theories/M_Numerics.v
theories/S_Numerics.v
theories/L_Interp.v
theories/L_Newton.v
theories/P_Numerics.v
theories/M_Coeffs.v
theories/M_Recurrence.v
theories/S_Superlink.v
theories/L_Forward.v
theories/L_Backward.v
theories/L_Pivots.v
theories/L_Internals.v
theories/L_Coeffs.v
theories/L_Boundary.v
theories/P_Superlink.v
theories/M_Assembly.v
theories/S_Network.v
theories/L_Assembly.v
theories/P_Assembly.v
theories/L_Dominance.v
theories/L_Linear.v
theories/P_Wellposed.v
theories/M_Step.v
theories/S_Step.v
theories/L_Step.v
theories/P_Step.v
theories/M_Banded.v
theories/P_Banded.v
theories/P_Limits.v
theories/P_Permute.v
theories/M_Controls.v
theories/S_Controls.v
theories/P_Controls.v
theories/M_Geometry.v
theories/S_Geometry.v
theories/L_Geometry.v
theories/P_Geometry.v
theories/M_Storage.v
theories/P_Storage.v
theories/M_Infiltration.v
theories/S_Infiltration.v
theories/L_Infiltration.v
theories/P_Infiltration.v
theories/M_Simulation.v
theories/S_Simulation.v
theories/P_Simulation.v
theories/P_ErrorNorm.v
theories/M_Kalman.v
theories/P_Kalman.v
theories/M_Layout.v
theories/S_Layout.v
theories/L_Layout.v
theories/L_Sort.v
theories/P_Layout.v
theories/P_Reposition.v
theories/M_Quality.v
theories/S_Quality.v
theories/L_Sweep.v
theories/L_Quality.v
theories/L_QualityStep.v
theories/L_QualityNet.v
theories/L_QualityMax.v
theories/L_Square.v
theories/L_QualitySolve.v
theories/P_Quality.v
theories/P_QualityMass.v
theories/P_QualityCases.v
theories/M_Model.v
theories/S_Model.v
theories/L_Model.v
theories/L_Gauss.v
theories/P_Model.v
theories/P_Replay.v
theories/S_Replay.v
theories/L_Relate.v
theories/P_Resume.v
theories/S_Object.v
theories/P_Object.v
theories/M_Transect.v
theories/S_Transect.v
theories/L_Transect.v
theories/P_Transect.v
theories/M_Coupling.v
theories/S_Coupling.v
theories/P_Coupling.v
theories/P_CouplingCases.v
theories/M_QualityFilter.v
theories/L_Inverse.v
theories/L_QualityFilter.v
theories/P_QualityFilter.v
theories/P_QualityFilterCases.v
theories/M_InfiltrationPy.v
theories/L_InfiltrationPy.v
theories/P_InfiltrationPy.v
theories/P_InfiltrationPyCases.v
theories/M_LeastSquares.v
theories/S_LeastSquares.v
theories/L_LeastSquares.v
theories/L_LeastSquaresChain.v
theories/L_LeastSquaresNn.v
theories/P_LeastSquares.v
theories/P_LeastSquaresCases.v
theories/M_ExitHydraulics.v
theories/S_ExitHydraulics.v
theories/L_ExitHydraulics.v
theories/P_ExitHydraulics.v
theories/M_SuperLinkPy.v
theories/P_SuperLinkPy.v
theories/P_SuperLinkPyCases.v
theories/S_MomentumEnds.v
theories/P_MomentumEnds.v
theories/M_Export.v
theories/P_Export.v
theories/M_SquareRoot.v
theories/P_SquareRoot.v
theories/M_GeometryPy.v
theories/P_GeometryPy.v
theories/P_Compare.v
theories/M_StoragePy.v
theories/P_StoragePy.v
theories/S_Mirror.v
theories/L_Mirror.v
theories/L_MirrorStep.v
theories/L_MirrorObject.v
theories/P_Mirror.v
theories/P_MirrorCases.v
theories/P_Advection.v
theories/P_SoilConstants.v
theories/M_EndSlopes.v
theories/P_EndSlopes.v
theories/P_ObjectGeometry.v
theories/S_Embed.v
theories/L_Embed.v
theories/L_EmbedObject.v
theories/P_Embed.v
theories/P_EmbedCases.v
theories/P_EmbedPasses.v
theories/S_Superpose.v
theories/P_Superpose.v
theories/M_Forcing.v
theories/P_TimeOrigin.v
theories/P_Datum.v
theories/M_Diagnostics.v
theories/P_Diagnostics.v
theories/P_DiagnosticsCases.v
theories/P_Symmetry.v
theories/P_SymmetryCases.v
theories/M_Visualization.v
theories/P_Visualization.v
theories/M_Perimeter.v
theories/P_Perimeter.v
theories/S_Steady.v
theories/L_Steady.v
theories/P_Steady.v
theories/M_Tables.v
theories/P_Tables.v
theories/P_Inputs.v
theories/P_Overflow.v
theories/M_Progress.v
theories/P_Progress.v
theories/P_Decay.v
theories/P_BestEstimate.v
theories/M_FilterSetup.v
theories/P_FilterSetup.v
theories/M_Suction.v
theories/P_Suction.v
theories/M_Spinup.v
theories/P_Spinup.v
theories/P_GaugeUnits.v
theories/M_FallbackSystem.v
theories/P_FallbackSystem.v
theories/M_FallbackInternals.v
theories/P_FallbackInternals.v
theories/Audit.v
