-Q theories Verif
theories/Num.v
theories/Py.v
theories/Jacobi.v
theories/Quadrature.v
theories/Basis.v
theories/Transform.v
theories/Cell.v
theories/Space.v
theories/RCalc.v
theories/PolyFacts.v
theories/ListFacts.v
theories/Spec.v
theories/BasisFacts.v
theories/BasisFacts2.v
theories/CellFacts.v
theories/Properties_Basis.v
theories/PolyDeg.v
theories/LegendreFacts.v
theories/Interp.v
theories/QuadFacts.v
theories/QuadExamples.v
theories/Properties_Quadrature.v
theories/SpecGeom.v
theories/TransformFacts.v
theories/CellFacts2.v
theories/PyFacts.v
theories/SpaceFacts.v
theories/SensorFacts.v
theories/TransformFacts2.v
theories/Heap.v
theories/HeapFacts.v
theories/ForcingFacts.v
theories/Properties_Transform.v
theories/Properties_Space.v
theories/Tensor.v
theories/Data.v
theories/Physics.v
theories/Train.v
theories/TensorFacts.v
theories/SpecTrain.v
theories/PhysicsFacts.v
theories/DataFacts.v
theories/TrainFacts.v
theories/PipelineFacts.v
theories/Properties_Training.v
theories/Geometry.v
theories/SpecMesh.v
theories/AngleFacts.v
theories/MeshFacts.v
theories/FileFacts.v
theories/ExternalFacts.v
theories/Properties_Mesh.v
theories/Nets.v
theories/Optim.v
theories/JetFacts.v
theories/SpecOptim.v
theories/OptimFacts.v
theories/AdamFacts.v
theories/Loop.v
theories/Config.v
theories/Study.v
theories/Init.v
theories/SpecLoop.v
theories/LoopFacts.v
theories/Properties_Optim.v
theories/SpecConfig.v
theories/ConfigFacts.v
theories/SpecInit.v
theories/SpecStudy.v
theories/StudyFacts.v
theories/InitFacts.v
theories/Properties_Loop.v
theories/Properties_Config.v
theories/Properties_Study.v
theories/Properties_Init.v
theories/NetFacts.v
theories/Properties_Nets.v
theories/Metrics.v
theories/MetricFacts.v
theories/Tuner.v
theories/TunerFacts.v
theories/Properties_Tuning.v
theories/SpecPde.v
theories/GlobalQuad.v
theories/ExactFacts.v
theories/ExactTrain.v
theories/ExactExamples.v
theories/Properties_Exact.v
theories/FloatFacts.v
theories/Properties_Float.v
theories/Problems.v
theories/Driver.v
theories/SpecDriver.v
theories/DriverFacts.v
theories/Properties_Driver.v
theories/SpecProblem.v
theories/ProblemFacts.v
theories/Properties_Problems.v
theories/SpecWeak.v
theories/WeakFacts.v
theories/SimilarFacts.v
theories/SymRule.v
theories/NumberFacts.v
theories/Weierstrass.v
theories/SquareInt.v
theories/ErrorFacts.v
theories/Converse.v
theories/Properties_Weak.v
theories/Properties_Error.v
theories/Rounding.v
theories/SpecRound.v
theories/RoundFacts.v
theories/Properties_Round.v
theories/SpecShape.v
theories/ShapeFacts.v
theories/Properties_Shape.v
theories/DriverInverse.v
theories/SpecDriverInverse.v
theories/DriverInverseFacts.v
theories/Properties_DriverInverse.v
theories/SpecScript.v
theories/ScriptFacts.v
theories/Properties_Script.v
theories/SpecMax.v
theories/MaxFacts.v
theories/RimFacts.v
theories/SmoothFacts.v
theories/UniqueFacts.v
theories/ShippedError.v
theories/HardFacts.v
theories/Properties_Max.v
theories/RoundNet.v
theories/SpecRoundNet.v
theories/RoundStep.v
theories/RoundNetFacts.v
theories/RoundHard.v
theories/Properties_RoundNet.v
theories/ComputedFacts.v
theories/Properties_Computed.v
theories/FieldFacts.v
theories/Properties_Field.v
theories/RoundOptim.v
theories/SpecRoundOptim.v
theories/RoundOptimFacts.v
theories/Properties_RoundOptim.v
theories/ChebFacts.v
theories/Properties_Cheb.v
