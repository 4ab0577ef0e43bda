-Q theories Verif
theories/Num.v
theories/NumR.v
theories/Linalg.v
theories/Arrays.v
theories/ModelGrid.v
theories/ModelShape.v
theories/Sums.v
theories/NumSF.v
theories/ShapeFacts.v
theories/SpecShape.v
theories/ShapeProofs.v
theories/ShapeProofs2.v
theories/ShapeProofs3.v
theories/P_Shape.v
theories/MappingProofs.v
theories/P_Mapping.v
theories/ModelMath.v
theories/ModelState.v
theories/ModelLaws.v
theories/ModelForces.v
theories/ModelSolver.v
theories/ResFacts.v
theories/SolverFacts.v
theories/SpecSolver.v
theories/TransferProofs.v
theories/TransferProofs2.v
theories/StepProofs.v
theories/GatherProofs.v
theories/MomentumProofs.v
theories/AffineProofs.v
theories/StepAffine.v
theories/VirialProofs.v
theories/HeavyProofs.v
theories/PlaneProofs.v
theories/ExSolver.v
theories/ProgressProofs.v
theories/P_Solver.v
theories/PermProofs.v
theories/SolverMore.v
theories/P_Solver2.v
theories/SpecMath.v
theories/MathProofs.v
theories/P_Math.v
theories/SpecLaws.v
theories/LawProofs.v
theories/LawProofs2.v
theories/P_Laws.v
theories/P_Laws2.v
theories/ShiftProofs.v
theories/ForceProofs.v
theories/P_Forces.v
theories/ModelSDF.v
theories/SpecSDF.v
theories/SDFProofs.v
theories/P_SDF.v
theories/P_SDF2.v
theories/ModelBuilder.v
theories/P_Builder.v
theories/ModelGen.v
theories/P_Gen.v
theories/ModelIO.v
theories/P_IO.v
theories/ModelElement.v
theories/ElementProofs.v
theories/P_Element.v
theories/DeformProofs.v
theories/GalileanProofs.v
theories/P_Motion.v
theories/LawApplyProofs.v
theories/P_Apply.v
theories/ModelGridSDF.v
theories/GridSDFProofs.v
theories/P_GridSDF.v
theories/P_Laws3.v
theories/TurnProofs.v
theories/P_Turn.v
theories/P_Contact.v
theories/EnergyProofs.v
theories/P_Energy.v
theories/SpecReady.v
theories/ReadyProofs.v
theories/BuildProofs.v
theories/P_Ready.v
theories/ModelStar.v
theories/SpecStar.v
theories/StarProofs.v
theories/P_Star.v
theories/ModelStrain.v
theories/SpecStrain.v
theories/StrainProofs.v
theories/P_Strain.v
theories/ModelMassGrad.v
theories/P_MassGrad.v
theories/P_Litho.v
theories/P_Lines.v
theories/P_Create.v
theories/P_Placed.v
theories/VolumeProofs.v
theories/P_Volume.v
theories/SpinProofs.v
theories/LoneProofs.v
theories/P_Spin.v
theories/P_Calls.v
theories/ModelVis.v
theories/P_VTK.v
theories/P_Surface.v
theories/NumFl.v
theories/FlFacts.v
theories/P_Float.v
theories/P_FloatTime.v
theories/P_FloatMass.v
theories/ModelUEPI.v
theories/P_UEPI.v
theories/ModelCollapse.v
theories/FloorProofs.v
theories/P_Floor.v
theories/P_CollapseRun.v
theories/ModelCalib.v
theories/CalibProofs.v
theories/P_Calib.v
theories/P_Return.v
theories/P_Normals.v
theories/P_Obstacle.v
theories/ModelSave.v
theories/P_Save.v
theories/P_Steady.v
theories/P_Shift.v
theories/P_Enlarge.v
theories/P_Gone.v
theories/ModelTwo.v
theories/P_Two.v
theories/ModelColumn.v
theories/P_Column.v
theories/ModelTrx.v
theories/P_Trx.v
