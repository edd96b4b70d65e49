-Q theories Verif

theories/Py.v
theories/MTransform.v
theories/MBounds.v
theories/MBezUtil.v
theories/MPathUtil.v
theories/MSegmentPen.v
theories/MMatrix.v
theories/MCurveFit.v
theories/MBezier.v
theories/MTables.v
theories/MBezierObj.v
theories/MColor.v
theories/MColorFloat.v
theories/MContour.v
theories/MPlotter.v
theories/Inst.v
theories/SpecGeom.v
theories/SpecTransform.v
theories/ProofTransform.v
theories/PropTransform.v
theories/TestReplay.v
theories/SpecOrder.v
theories/InstFloat.v
theories/SpecBounds.v
theories/ProofBounds.v
theories/PropBounds.v
theories/SpecUtil.v
theories/ProofUtil.v
theories/PropPath.v
theories/PropBezUtil.v
theories/SpecPen.v
theories/ProofPen.v
theories/ProofPen2.v
theories/PropPen.v
theories/SpecMatrix.v
theories/ProofMatrix.v
theories/SpecFit.v
theories/ProofFit.v
theories/ProofLsq.v
theories/PropMatrix.v
theories/PropFit.v
theories/SpecBezier.v
theories/SpecCurve.v
theories/ProofBezier.v
theories/ProofBezier2.v
theories/ProofBezier3.v
theories/ProofBBox.v
theories/ProofCurve.v
theories/PropBezier.v
theories/ProofAlign.v
theories/ProofRoots.v
theories/PropRoots.v
theories/ProofTight.v
theories/ProofScale.v
theories/ProofHigh.v
theories/ProofOffset.v
theories/ProofMisc.v
theories/ProofMisc2.v
theories/PropScale.v
theories/PropMisc.v
theories/ProofInter.v
theories/PropInter.v
theories/ProofReduce.v
theories/ProofSelf.v
theories/ProofGentle.v
theories/PropReduce.v
theories/SpecObj.v
theories/ProofObj.v
theories/ProofLength.v
theories/ProofLut.v
theories/PropObj.v
theories/SpecContour.v
theories/ProofContour.v
theories/ProofClosest.v
theories/PropContour.v
theories/SpecColor.v
theories/ProofColor.v
theories/ProofColor2.v
theories/PropColor.v
theories/SpecSvg.v
theories/ProofSvg.v
theories/InstZ.v
theories/SpecDouble.v
theories/SpecDouble2.v
theories/ProofDouble.v
theories/ProofDouble2.v
theories/ProofDouble3.v
theories/ProofDouble4.v
theories/ProofDouble5.v
theories/ProofDouble6.v
theories/ProofDouble7.v
theories/ProofDouble8.v
theories/SpecPlot.v
theories/ProofPlotter.v
theories/ProofPoly.v
theories/ProofRaise.v
theories/ProofHull.v
theories/ProofShape.v
theories/PropSvg.v
theories/PropFloat.v
theories/PropFloat2.v
theories/PropFloat3.v
theories/MComplex.v
theories/SpecComplex.v
theories/ProofComplex.v
theories/PropComplex.v
theories/SpecDouble3.v
theories/SpecDouble4.v
theories/ProofDouble9.v
theories/ProofDouble10.v
theories/ProofDouble11.v
theories/ProofDouble12.v
theories/ProofDouble13.v
theories/ProofDouble14.v
theories/ProofDouble15.v
theories/ProofDouble16.v
theories/ProofDouble17.v
theories/ProofDouble18.v
theories/PropFloat4.v
theories/PropFloat5.v
theories/PropFloat6.v
theories/PropFloat7.v
theories/PropFloat8.v
theories/PropFloat9.v
theories/SpecColorFloat.v
theories/ProofColorFloat.v
theories/ProofColorFloat2.v
theories/PropFloat10.v
theories/ProofPenErr.v
theories/PropPenErr.v
theories/SpecDouble5.v
theories/ProofDouble19.v
theories/PropFloat11.v
theories/SpecArc.v
theories/ProofArc.v
theories/ProofArc2.v
theories/ProofArc3.v
theories/PropArc.v
theories/MDecimal.v
theories/ProofDecimal.v
theories/ProofDecimal2.v
theories/ProofDecimal3.v
theories/PropDecimal.v
theories/SpecMove.v
theories/ProofMove.v
theories/ProofMove2.v
theories/PropMove.v
theories/SpecSwap.v
theories/ProofSwap.v
theories/ProofReverse.v
theories/PropSwap.v
theories/SpecWhole.v
theories/ProofWhole.v
theories/PropWhole.v
theories/SpecTurn.v
theories/ProofTurn.v
theories/PropTurn.v
theories/SpecFitMove.v
theories/ProofFitMove.v
theories/PropFitMove.v
theories/SpecDouble6.v
theories/ProofDouble20.v
theories/PropFloat12.v
theories/ProofDouble21.v
theories/PropFloat13.v
theories/SpecNan.v
theories/ProofNan.v
theories/PropNan.v
theories/ProofSize.v
theories/ProofSize2.v
theories/PropSize.v
theories/SpecConvex.v
theories/ProofConvex.v
theories/PropConvex.v
theories/SpecEdit.v
theories/ProofEdit.v
theories/ProofEdit2.v
theories/PropEdit.v
theories/SpecCross.v
theories/ProofCross.v
theories/ProofCross2.v
theories/PropCross.v
theories/SpecDouble7.v
theories/ProofDouble22.v
theories/PropFloat14.v
theories/SpecPolyline.v
theories/ProofPolyline.v
theories/PropPolyline.v
theories/ProofCut.v
theories/PropCut.v
theories/SpecDouble8.v
theories/ProofDouble23.v
theories/PropFloat15.v
theories/SpecError.v
theories/ProofError.v
theories/PropError.v
theories/SpecUndo.v
theories/ProofUndo.v
theories/PropUndo.v
theories/ProofResample.v
theories/PropResample.v
theories/SpecArea.v
theories/ProofArea.v
theories/PropArea.v
theories/SpecLattice.v
theories/ProofLattice.v
theories/PropLattice.v
theories/SpecFrame.v
theories/ProofFrame.v
theories/PropFrame.v
theories/SpecMeet.v
theories/ProofMeet.v
theories/PropMeet.v
theories/ProofBox.v
theories/PropBox.v
theories/SpecExtent.v
theories/ProofExtent.v
theories/PropExtent.v
theories/ProofTableBox.v
theories/PropTableBox.v
