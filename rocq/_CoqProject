-Q theories Verif
theories/Base.v
theories/RSum.v
theories/MatrixModel.v
theories/DofsModel.v
theories/DofsSpec.v
theories/DofsProofs.v
theories/DofsProofs2.v
theories/DofsProps.v
theories/AssemblerModel.v
theories/AssemblerSpec.v
theories/AssemblerProofs.v
theories/AssemblerProofs2.v
theories/AssemblerProps.v
theories/SparseModel.v
theories/SparseSpec.v
theories/SparseProofs.v
theories/SparseProps.v
theories/MonomialsModel.v
theories/MonomialsSpec.v
theories/MonomialsProofs.v
theories/MonomialsProofs2.v
theories/MonomialsProofs3.v
theories/MonomialsProofs4.v
theories/MonomialsProps.v
theories/EquationModel.v
theories/EquationSpec.v
theories/EquationProofs.v
theories/EquationProps.v
theories/GBasisModel.v
theories/GBasisSpec.v
theories/GBasisProofs.v
theories/GBasisProofs2.v
theories/GBasisProofs3.v
theories/GBasisProps.v
theories/LagrangeModel.v
theories/LagrangeSpec.v
theories/LagrangeProofs.v
theories/LagrangeProofs2.v
theories/LagrangeProps.v
theories/TriangleModel.v
theories/TriangleProofs.v
theories/RBinom.v
theories/TriangleSpec.v
theories/TriangleProofs2.v
theories/TriangleProofs3.v
theories/TriangleProofs4.v
theories/TriangleProofs5.v
theories/TriangleProps.v
theories/Renumber.v
theories/QuadModel.v
theories/QuadSpec.v
theories/QuadProofs.v
theories/QuadProofs2.v
theories/QuadProofs3.v
theories/QuadProofs4.v
theories/QuadProps.v
theories/SpacesModel.v
theories/SpacesSpec.v
theories/SpacesProofs.v
theories/SpacesProps.v
theories/VemQuadModel.v
theories/VemQuadSpec.v
theories/VemQuadProofs.v
theories/VemQuadProofs2.v
theories/GreenSpec.v
theories/GreenProofs.v
theories/VemQuadProps.v
theories/VemModel.v
theories/PolyProofs.v
theories/VemSpec.v
theories/GaussModel.v
theories/VemProofs.v
theories/VemProofs2.v
theories/VemProofs3.v
theories/VemProofs4.v
theories/VemProofs5.v
theories/VemProps.v
theories/DriverModel.v
theories/DriverSpec.v
theories/DriverProofs.v
theories/DriverProofs2.v
theories/DriverProofs3.v
theories/DriverProofs4.v
theories/DriverProps.v
theories/InertiaModel.v
theories/InertiaSpec.v
theories/InertiaProofs.v
theories/InertiaProps.v
theories/TraceModel.v
theories/TraceSpec.v
theories/TraceProofs.v
theories/TraceProofs2.v
theories/TraceProps.v
theories/TriangleProofs6.v
theories/TriangleProps2.v
theories/ZfemModel.v
theories/ZfemSpec.v
theories/ZfemProofs.v
theories/ZfemProofs2.v
theories/ZfemProofs3.v
theories/ZfemProofs4.v
theories/ZfemProofs5.v
theories/ZfemProofs6.v
theories/ZfemProofs7.v
theories/ZfemProofs8.v
theories/ZfemProofs9.v
theories/ZfemProps.v
theories/RtModel.v
theories/RtProofs.v
theories/RtSpec.v
theories/RtProofs2.v
theories/RtProofs3.v
theories/RtProofs4.v
theories/RtProofs5.v
theories/RtProofs6.v
theories/RtProps.v
theories/TetModel.v
theories/TetProofs.v
theories/TetProofs2.v
theories/TetProofs3.v
theories/TetProofs4.v
theories/TetProofs5.v
theories/TetSpec.v
theories/TetProps.v
theories/TetLocalModel.v
theories/TetLocalSpec.v
theories/TetLocalProofs.v
theories/TetLocalProofs2.v
theories/TetLocalProofs3.v
theories/TetLocalProofs4.v
theories/TetLocalProofs5.v
theories/TetLocalProofs6.v
theories/TetLocalProofs7.v
theories/TetLocalProofs8.v
theories/TetLocalProofs9.v
theories/TetLocalProofs10.v
theories/TetLocalProps.v
theories/DriverSpec2.v
theories/DriverProofs5.v
theories/DriverProofs6.v
theories/DriverProofs7.v
theories/DriverProps2.v
theories/Driver2Model.v
theories/Driver2Spec.v
theories/Driver2Proofs.v
theories/Driver2Proofs2.v
theories/Driver2Proofs3.v
theories/Driver2Props.v
theories/Pcc2dModel.v
theories/Pcc2dSpec.v
theories/Pcc2dProofs.v
theories/Pcc2dProofs2.v
theories/Pcc2dProofs3.v
theories/Pcc2dProofs4.v
theories/Pcc2dProofs5.v
theories/Pcc2dProofs6.v
theories/Pcc2dProofs7.v
theories/Pcc2dProofs8.v
theories/Pcc2dProps.v
theories/Fem2dSpec.v
theories/Fem2dProofs.v
theories/Fem2dProofs2.v
theories/Fem2dProofs3.v
theories/Fem2dProofs4.v
theories/Fem2dProps.v
theories/VemMccModel.v
theories/VemMccSpec.v
theories/VemMccProofs.v
theories/VemMccProofs2.v
theories/VemMccProofs3.v
theories/VemMccProofs4.v
theories/VemMccProofs5.v
theories/VemMccProps.v
theories/Mcc2dModel.v
theories/Mcc2dSpec.v
theories/Mcc2dProofs.v
theories/Mcc2dProofs2.v
theories/Mcc2dProofs3.v
theories/Mcc2dProofs4.v
theories/Mcc2dProofs5.v
theories/Mcc2dProofs6.v
theories/Mcc2dProofs7.v
theories/Mcc2dProofs8.v
theories/Mcc2dProofs9.v
theories/Mcc2dProps.v
theories/ParabolicModel.v
theories/ParabolicSpec.v
theories/ParabolicProofs2.v
theories/ParabolicProofs3.v
theories/ParabolicProofs.v
theories/ParabolicProofs4.v
theories/ParabolicProofs5.v
theories/ParabolicProofs6.v
theories/ParabolicProps.v
theories/DfModel.v
theories/DfSpec.v
theories/DfProofs.v
theories/DfProofs2.v
theories/DfProofs3.v
theories/DfProofs4.v
theories/DfProofs5.v
theories/DfProofs6.v
theories/DfProps.v
theories/Elliptic1dModel.v
theories/Elliptic1dSpec.v
theories/Elliptic1dProofs.v
theories/Elliptic1dProofs2.v
theories/Elliptic1dProofs3.v
theories/Elliptic1dProofs4.v
theories/Elliptic1dProofs5.v
theories/Elliptic1dProofs6.v
theories/Elliptic1dProps.v
theories/ElasticModel.v
theories/ElasticSpec.v
theories/ElasticProofs.v
theories/ElasticProofs2.v
theories/ElasticProofs3.v
theories/ElasticProps.v
theories/ElasticProofs4.v
theories/ElasticGlobalModel.v
theories/ElasticGlobalSpec.v
theories/ElasticGlobalProofs.v
theories/ElasticGlobalProofs2.v
theories/ElasticGlobalProps.v
theories/ElasticBoundaryModel.v
theories/ElasticBoundarySpec.v
theories/ElasticBoundaryProofs.v
theories/ElasticBoundaryProofs2.v
theories/ElasticBoundaryProofs3.v
theories/ElasticBoundaryProps.v
theories/ElasticBoundaryProofs4.v
theories/ElasticBoundaryProofs5.v
theories/ElasticBoundaryProofs6.v
theories/ElasticPatchProps.v
