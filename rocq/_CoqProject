-Q theories Verif
theories/Base.v
theories/ChunksModel.v
theories/BaseProofs.v
theories/ChunksProofs.v
theories/PropChunks.v
theories/SimModel.v
theories/SimProofs.v
theories/PathwayModel.v
theories/PathwayProofs.v
theories/QueryProofs.v
theories/SelectProofs.v
theories/SimExamples.v
theories/PropSim.v
theories/PropPathway.v
theories/InterpModel.v
theories/InterpSpec.v
theories/InterpProofs.v
theories/WalkProofs.v
theories/DeltaProofs.v
theories/PropInterp.v
theories/PowderModel.v
theories/PowderProofs.v
theories/PowderRProofs.v
theories/PropPowder.v
theories/AxisModel.v
theories/AxisSpec.v
theories/AxisProofs.v
theories/AxisPeakProofs.v
theories/PropAxis.v
theories/DftModel.v
theories/DftSpec.v
theories/DftProofs.v
theories/TableProofs.v
theories/PropDft.v
theories/WignerMatrix.v
theories/WignerModel.v
theories/WignerSpec.v
theories/WignerOrtho.v
theories/WignerCompose.v
theories/WignerNorm.v
theories/WignerClose.v
theories/WignerFormula.v
theories/WignerProofs.v
theories/PropWigner.v
theories/FreqModel.v
theories/FreqSpec.v
theories/FreqProofs.v
theories/CoreProofs.v
theories/FreqConst.v
theories/PropFreq.v
theories/MethodsModel.v
theories/MethodsProofs.v
theories/MethodsSelect.v
theories/PropMethods.v
theories/MethodsShear.v
theories/PropShear.v
theories/TListModel.v
theories/TListProofs.v
theories/PropTList.v
theories/SitesModel.v
theories/SitesSpec.v
theories/SitesProofs.v
theories/PropSites.v
theories/DictModel.v
theories/DictSpec.v
theories/DictProofs.v
theories/PropDict.v
theories/TensorModel.v
theories/TensorSpec.v
theories/TensorProofs.v
theories/PropTensor.v
theories/CollectModel.v
theories/CollectSpec.v
theories/CollectProofs.v
theories/PropCollect.v
theories/FitModel.v
theories/FitSpec.v
theories/FitProofs.v
theories/PropFit.v
theories/SigModel.v
theories/SigSpec.v
theories/SigProofs.v
theories/PropSig.v
theories/JsonModel.v
theories/JsonSpec.v
theories/JsonProofs.v
theories/JsonUnits.v
theories/JsonSame.v
theories/JsonLost.v
theories/PropJson.v
theories/Interp2DModel.v
theories/Interp2DSpec.v
theories/Interp2DProofs.v
theories/TentReal.v
theories/AreaSpec.v
theories/AreaProofs.v
theories/Interp2DExact.v
theories/TwoDModel.v
theories/TwoDProofs.v
theories/PropInterp2D.v
theories/MemModel.v
theories/MemSpec.v
theories/MemProofs.v
theories/MemPlan.v
theories/MemDims.v
theories/MemRun.v
theories/MemCore.v
theories/MemSetup.v
theories/MemWhole.v
theories/PropMem.v
theories/ReadModel.v
theories/ReadSpec.v
theories/ReadProofs.v
theories/PropRead.v
theories/OutModel.v
theories/OutSpec.v
theories/OutProofs.v
theories/PropOut.v
theories/FitRunModel.v
theories/FitRunSpec.v
theories/FitRunProofs.v
theories/FitRunLinear.v
theories/PropFitRun.v
theories/ProcModel.v
theories/ProcSpec.v
theories/ProcProofs.v
theories/PropProc.v
theories/MachModel.v
theories/MachSpec.v
theories/MachProofs.v
theories/Mach2DModel.v
theories/Mach2DProofs.v
theories/PropMach.v
theories/CorrModel.v
theories/CorrSpec.v
theories/CorrProofs.v
theories/PropCorr.v
theories/LiveModel.v
theories/LiveSpec.v
theories/LiveProofs.v
theories/PropLive.v
theories/NamedModel.v
theories/NamedSpec.v
theories/NamedProofs.v
theories/PropNamed.v
theories/PropDefaults.v
theories/PhysSpec.v
theories/PhysLevels.v
theories/PhysRot.v
theories/PhysCouple.v
theories/PhysSpin.v
theories/PhysExact.v
theories/PhysClose.v
theories/PhysRotor.v
theories/PhysEvent.v
theories/PropPhys.v
theories/PhysRead.v
theories/PhysSide.v
theories/PropSide.v
theories/PowderMoment.v
theories/PropMoment.v
theories/WignerElement.v
theories/WignerElementProofs.v
theories/PropElement.v
theories/NamedValues.v
theories/PropNamedValues.v
theories/EqualModel.v
theories/EqualSpec.v
theories/EqualProofs.v
theories/PropEqual.v
theories/AverageSpec.v
theories/AverageProofs.v
theories/AveragePhys.v
theories/AverageCentre.v
theories/PropAverage.v
theories/SphereSpec.v
theories/SphereRiemann.v
theories/SphereChange.v
theories/SphereProofs.v
theories/SpherePhys.v
theories/PropSphere.v
theories/InducedSpec.v
theories/InducedProofs.v
theories/PropInduced.v
theories/ShapeSpec.v
theories/ShapeProofs.v
theories/ShapeClose.v
theories/PropShape.v
theories/FrameSpec.v
theories/FrameProofs.v
theories/FramePhys.v
theories/PropFrame.v
theories/BareModel.v
theories/BareSpec.v
theories/BareProofs.v
theories/BareRead.v
theories/BareLost.v
theories/PropBare.v
theories/ExportModel.v
theories/ExportSpec.v
theories/ExportProofs.v
theories/PropExport.v
theories/SidebandLimit.v
theories/PropSideband.v
theories/SelectTwo.v
theories/SideLimit.v
theories/PropOrders.v
theories/SideTail.v
theories/PropTail.v
theories/PropNull.v
theories/TListFind.v
theories/PropFind.v
theories/PropTable.v
theories/RunModel.v
theories/PropRun.v
theories/PropPack.v
