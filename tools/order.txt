Prelude
M_Numerics
S_Numerics
L_Interp
L_Newton
P_Numerics
M_Coeffs
M_Recurrence
S_Superlink
L_Forward
L_Backward
L_Pivots
L_Internals
L_Coeffs
L_Boundary
P_Superlink
M_Assembly
S_Network
L_Assembly
P_Assembly
L_Dominance
L_Linear
P_Wellposed
M_Step
S_Step
L_Step
P_Step
M_Banded
P_Banded
P_Limits
P_Permute
M_Controls
S_Controls
P_Controls
M_Geometry
S_Geometry
L_Geometry
P_Geometry
M_Storage
P_Storage
M_Infiltration
S_Infiltration
L_Infiltration
P_Infiltration
M_Simulation
S_Simulation
P_Simulation
P_ErrorNorm
M_Kalman
P_Kalman
M_Layout
S_Layout
L_Layout
L_Sort
P_Layout
P_Reposition
M_Quality
S_Quality
L_Sweep
L_Quality
L_QualityStep
L_QualityNet
L_QualityMax
L_Square
L_QualitySolve
P_Quality
P_QualityMass
P_QualityCases
M_Model
S_Model
L_Model
L_Gauss
P_Model
P_Replay
S_Replay
L_Relate
P_Resume
S_Object
P_Object
M_Transect
S_Transect
L_Transect
P_Transect
M_Coupling
S_Coupling
P_Coupling
P_CouplingCases
M_QualityFilter
L_Inverse
L_QualityFilter
P_QualityFilter
P_QualityFilterCases
M_InfiltrationPy
L_InfiltrationPy
P_InfiltrationPy
P_InfiltrationPyCases
M_LeastSquares
S_LeastSquares
L_LeastSquares
L_LeastSquaresChain
L_LeastSquaresNn
P_LeastSquares
P_LeastSquaresCases
M_ExitHydraulics
S_ExitHydraulics
L_ExitHydraulics
P_ExitHydraulics
M_SuperLinkPy
P_SuperLinkPy
P_SuperLinkPyCases
S_MomentumEnds
P_MomentumEnds
M_Export
P_Export
M_SquareRoot
P_SquareRoot
M_GeometryPy
P_GeometryPy
P_Compare
M_StoragePy
P_StoragePy
S_Mirror
L_Mirror
L_MirrorStep
L_MirrorObject
P_Mirror
P_MirrorCases
P_Advection
P_SoilConstants
M_EndSlopes
P_EndSlopes
P_ObjectGeometry
S_Embed
L_Embed
L_EmbedObject
P_Embed
P_EmbedCases
P_EmbedPasses
S_Superpose
P_Superpose
M_Forcing
P_TimeOrigin
P_Datum
M_Diagnostics
P_Diagnostics
P_DiagnosticsCases
P_Symmetry
P_SymmetryCases
M_Visualization
P_Visualization
M_Perimeter
P_Perimeter
S_Steady
L_Steady
P_Steady
M_Tables
P_Tables
P_Inputs
P_Overflow
M_Progress
P_Progress
P_Decay
P_BestEstimate
M_FilterSetup
P_FilterSetup
M_Suction
P_Suction
M_Spinup
P_Spinup
P_GaugeUnits
M_FallbackSystem
P_FallbackSystem
M_FallbackInternals
P_FallbackInternals
