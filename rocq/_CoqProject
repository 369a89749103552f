-Q theories Verif
theories/Base.v
theories/TimeModel.v
theories/TimeSpec.v
theories/TimeProofs.v
theories/QuadProofs.v
theories/Props_Time.v
theories/FormModel.v
theories/SpaceTimeForms.v
theories/FormSpec.v
theories/FormProofs.v
theories/FormBlocks.v
theories/GuardProofs.v
theories/FormTime.v
theories/FormC12.v
theories/RhsProofs.v
theories/FormSym.v
theories/FormStruct.v
theories/FormCons.v
theories/FormWf.v
theories/FormExample.v
theories/Props_Forms.v
theories/SpaceTimeModel.v
theories/SlabOps.v
theories/ApplyProofs.v
theories/MarchProofs.v
theories/MarchLoops.v
theories/MarchSum.v
theories/MarchUnique.v
theories/ErrorsModel.v
theories/Lifecycle.v
theories/LifeProofs.v
theories/LinAlg.v
theories/OpsProofs.v
theories/SetupOk.v
theories/OpsExample.v
theories/Props_Ops.v
theories/LifeFrames.v
theories/Props_Life.v
theories/Props_Stored.v
theories/Transfer.v
theories/Props_Transfer.v
theories/ErrorsSpec.v
theories/ErrorsProofs.v
theories/FloatModel.v
theories/PlotProofs.v
theories/Props_Errors.v
theories/FloatRound.v
theories/FloatSamples.v
theories/Props_Float.v
theories/GmresModel.v
theories/Props_Gmres.v
theories/DriverModel.v
theories/DriverConfig.v
theories/Props_Driver.v
theories/Props_Solve.v
theories/MeshModel.v
theories/Props_Mesh.v
theories/Props_Geometry.v
theories/WellPosed.v
theories/Injective.v
theories/Props_WellPosed.v
theories/Stability.v
theories/ErrorBound.v
theories/Props_Stability.v
theories/Observe.v
theories/Props_Observe.v
theories/Props_Config.v
theories/Krylov.v
theories/Delivered.v
theories/Props_Krylov.v
theories/Space1D.v
theories/NoData.v
theories/Elliptic1D.v
theories/Props_Space1D.v
theories/Vanish.v
theories/Props_Vanish.v
theories/LeastSquares.v
theories/TestsModel.v
theories/Props_Tests.v
theories/Props_Smoke.v
theories/WorldModel.v
theories/Props_World.v
theories/Interp1D.v
theories/Converge1D.v
theories/Props_Converge.v
theories/Reported.v
theories/Props_Reported.v
theories/ModulesModel.v
theories/Props_Modules.v
theories/Automaton.v
theories/Props_Automaton.v
theories/MpiModel.v
theories/Props_Mpi.v
theories/ConftestModel.v
theories/Props_Conftest.v
theories/Props_March.v
theories/MonitorModel.v
theories/Props_Monitor.v
theories/Props_Layout.v
theories/FloatTime.v
theories/FloatExpr.v
theories/FloatLocal.v
theories/Props_FloatTime.v
theories/FloatErrors.v
theories/FloatErrorsProofs.v
theories/Props_FloatErrors.v
theories/MpiSparse.v
theories/Props_MpiSparse.v
theories/FloatApply.v
theories/FloatApplyProofs.v
theories/Props_FloatApply.v
theories/OutputModel.v
theories/OutputProofs.v
theories/Props_Output.v
theories/Props_OutputRun.v
theories/Sized.v
theories/SizedProofs.v
theories/Props_Sized.v
theories/MeshTags.v
theories/Props_Tags.v
theories/Blind.v
theories/Props_Blind.v
theories/FloatMarch.v
theories/Props_FloatMarch.v
theories/Simplex.v
theories/SimplexRule.v
theories/BoxCell.v
theories/Props_Cells.v
theories/Props_Regions.v
theories/Props_Disc.v
theories/MeshOutput.v
theories/Props_MeshOutput.v
theories/FloatMesh.v
theories/Props_MeshDoubles.v
theories/Props_Square.v
theories/Props_MeshLink.v
theories/Props_Volumes.v
theories/MeshFiles.v
theories/Props_MeshFiles.v
theories/ScratchNodes.v
theories/Props_Scratch.v
theories/MpiTransfer.v
theories/Props_MpiTransfer.v
theories/FloatPre.v
theories/Props_FloatPre.v
theories/FloatClient.v
theories/Props_FloatClient.v
theories/FloatAlias.v
theories/Props_FloatAlias.v
theories/FloatTransfer.v
theories/Props_FloatTransfer.v
