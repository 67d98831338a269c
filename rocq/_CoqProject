-Q theories Verif
theories/Outcome.v
theories/ListExtra.v
theories/FixedVectorModel.v
theories/FixedVectorProofs.v
theories/FixedVectorProps.v
theories/ArrayRefModel.v
theories/ArrayRefProofs.v
theories/ArrayRefProps.v
theories/StringModel.v
theories/StringProofs.v
theories/StringProps.v
theories/MiscModel.v
theories/MiscProofs.v
theories/MiscProps.v
theories/BoundsModel.v
theories/BoundsProofs.v
theories/BoundsProps.v
theories/MathArrayModel.v
theories/MathArrayProofs.v
theories/MathArrayProps.v
theories/AtomicsModel.v
theories/AtomicsProofs.v
theories/AtomicsRuns.v
theories/AtomicsProgress.v
theories/AtomicsProps.v
theories/RingFacts.v
theories/MatrixModel.v
theories/MatrixProofs.v
theories/MatrixNorms.v
theories/MatrixExp.v
theories/MatrixProps.v
theories/VectorModel.v
theories/VectorProofs.v
theories/VectorProps.v
theories/GeometryModel.v
theories/GeometryProofs.v
theories/PolygonProps.v
theories/PolyhedronProps.v
theories/ElementsModel.v
theories/ElementsProofs.v
theories/ElementsProps.v
theories/QuadratureModel.v
theories/QuadratureProofs.v
theories/QuadratureProps.v
theories/JacobianModel.v
theories/JacobianProps.v
theories/LagrangeModel.v
theories/LagrangeProofs.v
theories/LagrangeProps.v
theories/InputModel.v
theories/InputProofs.v
theories/InputProps.v
theories/LuaModel.v
theories/LuaProofs.v
theories/LuaProps.v
theories/DbcModel.v
theories/DbcProps.v
theories/VtkModel.v
theories/VtkProps.v
theories/CatalystModel.v
theories/CatalystProofs.v
theories/CatalystProps.v
theories/RealInst.v
theories/ExpScale.v
theories/MatrixExpAcc.v
theories/MatrixExpReal.v
theories/MatrixExpProps.v
theories/ElementsConf.v
theories/ElementsConfProps.v
theories/PythonModel.v
theories/PythonProps.v
theories/AtomicsVarsModel.v
theories/AtomicsVarsProofs.v
theories/AtomicsVarsProps.v
theories/AtomicsApiModel.v
theories/AtomicsApiProps.v
theories/SpaceVectorModel.v
theories/SpaceVectorProps.v
theories/ArgumentsModel.v
theories/ArgumentsProps.v
theories/LogModel.v
theories/LogProps.v
theories/FloatRound.v
theories/FloatModel.v
theories/FloatProofs.v
theories/FloatProps.v
theories/FloatGeomProps.v
theories/IndexModel.v
theories/IndexProps.v
theories/NormalProps.v
theories/IntGeometryModel.v
theories/IntGeometryProps.v
theories/FloatExpr.v
theories/FloatShapeModel.v
theories/FloatShapeProps.v
theories/FloatDetProps.v
theories/FloatCentroidProps.v
theories/ArrayTextModel.v
theories/ArrayTextProps.v
theories/DetBridge.v
theories/FloatSolveModel.v
theories/FloatSolveProps.v
theories/LuaRefModel.v
theories/LuaRefProofs.v
theories/LuaRefProps.v
theories/LuaTextModel.v
theories/LuaTextProps.v
theories/FloatElementsModel.v
theories/FloatElementsProofs.v
theories/FloatElementsProps.v
theories/FloatLagrangeModel.v
theories/FloatLagrangeProofs.v
theories/FloatLagrangeProps.v
theories/FloatJacobianModel.v
theories/FloatJacobianProps.v
theories/TypeTraitsModel.v
theories/TypeTraitsProps.v
theories/InputSourceModel.v
theories/InputSourceProps.v
theories/ViewIterModel.v
theories/ViewIterProps.v
theories/VtkOwnModel.v
theories/VtkOwnProofs.v
theories/VtkOwnProps.v
theories/ElementsMemModel.v
theories/ElementsMemProofs.v
theories/ElementsMemProps.v
theories/ElementsFixedMemModel.v
theories/ElementsFixedMemProofs.v
theories/ElementsFixedMemProps.v
theories/FloatQuadratureModel.v
theories/FloatQuadratureProofs.v
theories/FloatQuadratureProps.v
theories/AtomicsTypesModel.v
theories/AtomicsTypesProps.v
theories/SpaceNumModel.v
theories/SpaceNumProps.v
theories/AtomicsTestModel.v
theories/AtomicsTestProps.v
theories/AtomicsSingleModel.v
theories/AtomicsSingleProps.v
theories/FunctionalModel.v
theories/FunctionalProps.v
theories/FoobarModel.v
theories/FoobarProps.v
