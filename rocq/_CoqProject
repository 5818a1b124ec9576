-Q theories Verif
theories/FNum.v
theories/ModelBoolean.v
theories/ModelFfi.v
theories/ModelIndex.v
theories/ModelIntersects.v
theories/ModelIntr.v
theories/ModelMath.v
theories/ModelOffset.v
theories/ModelPline.v
theories/ModelRedundant.v
theories/ModelSeg.v
theories/ModelSegIntr.v
theories/ModelSerde.v
theories/ModelShape.v
theories/ModelUi.v
theories/ModelView.v
theories/Num.v
theories/ProofArc.v
theories/ProofArc2.v
theories/ProofArea.v
theories/ProofArea2.v
theories/ProofArea3.v
theories/ProofArea4.v
theories/ProofArea5.v
theories/ProofArea6.v
theories/ProofBase.v
theories/ProofBoolean.v
theories/ProofBooleanF.v
theories/ProofBox.v
theories/ProofBox2.v
theories/ProofBox3.v
theories/ProofChain.v
theories/ProofChain2.v
theories/ProofCircleOff.v
theories/ProofCircleOff2.v
theories/ProofClosest.v
theories/ProofClosest2.v
theories/ProofCompose.v
theories/ProofConn.v
theories/ProofConn2.v
theories/ProofConn3.v
theories/ProofConvex.v
theories/ProofConvexEx.v
theories/ProofConvexOff.v
theories/ProofCurve.v
theories/ProofCurve1.v
theories/ProofCurve2.v
theories/ProofCurve3.v
theories/ProofCurveEx.v
theories/ProofCuts.v
theories/ProofCuts2.v
theories/ProofCuts3.v
theories/ProofCutsF.v
theories/ProofCutsR.v
theories/ProofDisc.v
theories/ProofDisc2.v
theories/ProofEdit.v
theories/ProofFfi.v
theories/ProofFfi2.v
theories/ProofFfi3.v
theories/ProofFfiEx.v
theories/ProofFind.v
theories/ProofFindF.v
theories/ProofFindR.v
theories/ProofFlat.v
theories/ProofFlatF.v
theories/ProofFuzzy.v
theories/ProofHalf.v
theories/ProofIndex2.v
theories/ProofIntr.v
theories/ProofInvert.v
theories/ProofIter.v
theories/ProofJoin.v
theories/ProofJoinF.v
theories/ProofJoinR.v
theories/ProofJordan.v
theories/ProofJordan2.v
theories/ProofJordan3.v
theories/ProofJordan4.v
theories/ProofJordan5.v
theories/ProofJordan6.v
theories/ProofLineOff.v
theories/ProofLineOff2.v
theories/ProofMath.v
theories/ProofMathF.v
theories/ProofMeasure.v
theories/ProofNest.v
theories/ProofNothing.v
theories/ProofNothing2.v
theories/ProofOff1.v
theories/ProofOff2.v
theories/ProofOff3.v
theories/ProofOff4.v
theories/ProofOff5.v
theories/ProofOff6.v
theories/ProofOff7.v
theories/ProofOff8.v
theories/ProofOff9.v
theories/ProofOffEx.v
theories/ProofOffEx2.v
theories/ProofOffNear.v
theories/ProofOffNear2.v
theories/ProofOffNear3.v
theories/ProofOffNear4.v
theories/ProofOffset1.v
theories/ProofOffset2.v
theories/ProofOffset3.v
theories/ProofOffset3F.v
theories/ProofOffsetContract.v
theories/ProofOffsetFar.v
theories/ProofOffsetFarF.v
theories/ProofOffsetJoin.v
theories/ProofOffsetJoin2.v
theories/ProofOffsetJoin3.v
theories/ProofOffsetJoin4.v
theories/ProofOffsetJoin5.v
theories/ProofOffsetJoinF.v
theories/ProofOffsetTotal.v
theories/ProofOpen1.v
theories/ProofOpen2.v
theories/ProofOpenEx.v
theories/ProofOverlap.v
theories/ProofOverlap2.v
theories/ProofPass1.v
theories/ProofPass2.v
theories/ProofPass3.v
theories/ProofPassEx.v
theories/ProofPieces.v
theories/ProofPieces2.v
theories/ProofPiecesEx.v
theories/ProofPiecesEx2.v
theories/ProofPolyBool.v
theories/ProofPolyBool2.v
theories/ProofPolyOff.v
theories/ProofPolyOff2.v
theories/ProofPolyOff3.v
theories/ProofPrune.v
theories/ProofPrune2.v
theories/ProofPruneR.v
theories/ProofR.v
theories/ProofRawNear.v
theories/ProofRawNear2.v
theories/ProofRawNear3.v
theories/ProofRawNearF.v
theories/ProofRay.v
theories/ProofRedundant.v
theories/ProofRedundantR.v
theories/ProofRedundantSmall.v
theories/ProofRegion.v
theories/ProofRegion10.v
theories/ProofRegion11.v
theories/ProofRegion12.v
theories/ProofRegion2.v
theories/ProofRegion3.v
theories/ProofRegion4.v
theories/ProofRegion5.v
theories/ProofRegion6.v
theories/ProofRegion7.v
theories/ProofRegion8.v
theories/ProofRegion9.v
theories/ProofRepeat.v
theories/ProofRepeat2.v
theories/ProofRing.v
theories/ProofRing2.v
theories/ProofRing3.v
theories/ProofRing4.v
theories/ProofRing5.v
theories/ProofRound1.v
theories/ProofRound2.v
theories/ProofRound3.v
theories/ProofRound4.v
theories/ProofRoundEx.v
theories/ProofSame1.v
theories/ProofSame2.v
theories/ProofSame3.v
theories/ProofSame4.v
theories/ProofSame5.v
theories/ProofSegIntr.v
theories/ProofSegIntr2.v
theories/ProofSegIntr3.v
theories/ProofSegIntr4.v
theories/ProofSegIntr5.v
theories/ProofSegIntr6.v
theories/ProofSegIntr7.v
theories/ProofSegIntrF.v
theories/ProofSelf.v
theories/ProofSerde.v
theories/ProofShape.v
theories/ProofShape2.v
theories/ProofShape3.v
theories/ProofShape4.v
theories/ProofShape5.v
theories/ProofShape6.v
theories/ProofShapeF.v
theories/ProofShapeR.v
theories/ProofSlice.v
theories/ProofSlice2.v
theories/ProofSteiner.v
theories/ProofSteiner2.v
theories/ProofSteiner3.v
theories/ProofStitch.v
theories/ProofStitch2.v
theories/ProofTarget.v
theories/ProofTarget2.v
theories/ProofTarget3.v
theories/ProofTarget4.v
theories/ProofTarget5.v
theories/ProofTarget6.v
theories/ProofTarget7.v
theories/ProofTarget8.v
theories/ProofTotal.v
theories/ProofTotal2.v
theories/ProofTotal3.v
theories/ProofTotal4.v
theories/ProofTouchEx.v
theories/ProofTranslate.v
theories/ProofTranslate10.v
theories/ProofTranslate11.v
theories/ProofTranslate12.v
theories/ProofTranslate2.v
theories/ProofTranslate3.v
theories/ProofTranslate4.v
theories/ProofTranslate5.v
theories/ProofTranslate6.v
theories/ProofTranslate7.v
theories/ProofTranslate8.v
theories/ProofTranslate9.v
theories/ProofUi.v
theories/ProofUi2.v
theories/ProofUi3.v
theories/ProofUi4.v
theories/ProofUiF.v
theories/ProofValid.v
theories/ProofValid2.v
theories/ProofValidF.v
theories/ProofVanish.v
theories/ProofVanish2.v
theories/ProofVanish3.v
theories/ProofVanishEx.v
theories/ProofView.v
theories/ProofView2.v
theories/ProofViewEx.v
theories/ProofWalk.v
theories/ProofWalkEx.v
theories/ProofWhole.v
theories/ProofWinding.v
theories/ProofWinding2.v
theories/ProofWinding3.v
theories/ProofWinding4.v
theories/ProofWinding5.v
theories/ProofWinding6.v
theories/ProofWinding7.v
theories/Prop_Angle.v
theories/Prop_Arc.v
theories/Prop_Area.v
theories/Prop_Basic.v
theories/Prop_Boolean.v
theories/Prop_Box.v
theories/Prop_CircleOff.v
theories/Prop_Closest.v
theories/Prop_Compose.v
theories/Prop_Convex.v
theories/Prop_Curve.v
theories/Prop_Cuts.v
theories/Prop_Draw.v
theories/Prop_Edit.v
theories/Prop_Ffi.v
theories/Prop_Flat.v
theories/Prop_Fuzzy.v
theories/Prop_Index.v
theories/Prop_Intersects.v
theories/Prop_Intr.v
theories/Prop_Join.v
theories/Prop_Jordan.v
theories/Prop_LineOff.v
theories/Prop_Math.v
theories/Prop_Measure.v
theories/Prop_Nothing.v
theories/Prop_OffNear.v
theories/Prop_Offset.v
theories/Prop_OffsetContract.v
theories/Prop_OffsetFar.v
theories/Prop_OffsetJoin.v
theories/Prop_OffsetStitch.v
theories/Prop_Open.v
theories/Prop_Pass.v
theories/Prop_Pieces.v
theories/Prop_PolyBool.v
theories/Prop_PolyOff.v
theories/Prop_RawNear.v
theories/Prop_Redundant.v
theories/Prop_Region.v
theories/Prop_Repeat.v
theories/Prop_Ring.v
theories/Prop_Round.v
theories/Prop_Same.v
theories/Prop_Scene.v
theories/Prop_SegIntr.v
theories/Prop_Serde.v
theories/Prop_Shape.v
theories/Prop_Simple.v
theories/Prop_Steiner.v
theories/Prop_Total.v
theories/Prop_Translate.v
theories/Prop_TranslateBool.v
theories/Prop_TranslateEdit.v
theories/Prop_TranslateShape.v
theories/Prop_Valid.v
theories/Prop_Vanish.v
theories/Prop_View.v
theories/Prop_Walk.v
theories/Prop_Winding.v
theories/Prop_Wrap.v
theories/RNum.v
theories/Res.v
theories/Spec.v
theories/SpecBoolean.v
theories/SpecBox.v
theories/SpecChain.v
theories/SpecCircle.v
theories/SpecClosest.v
theories/SpecConvex.v
theories/SpecCurve.v
theories/SpecCuts.v
theories/SpecFfi.v
theories/SpecFlat.v
theories/SpecGeom.v
theories/SpecIndex.v
theories/SpecIntersects.v
theories/SpecIntr.v
theories/SpecJoin.v
theories/SpecJordan.v
theories/SpecMath.v
theories/SpecNothing.v
theories/SpecOffNear.v
theories/SpecOffset.v
theories/SpecOffset2.v
theories/SpecOffsetJoin.v
theories/SpecOpen.v
theories/SpecPieces.v
theories/SpecPline.v
theories/SpecPolyBool.v
theories/SpecPolyOff.v
theories/SpecPrune.v
theories/SpecPruneR.v
theories/SpecRawNear.v
theories/SpecRedundant.v
theories/SpecRegion.v
theories/SpecRing.v
theories/SpecRound.v
theories/SpecSame.v
theories/SpecSegIntr.v
theories/SpecSerde.v
theories/SpecShape.v
theories/SpecShapeR.v
theories/SpecSimple.v
theories/SpecStitch.v
theories/SpecTotal.v
theories/SpecTranslate.v
theories/SpecTranslateBool.v
theories/SpecTranslateShape.v
theories/SpecUi.v
theories/SpecValid.v
theories/SpecVanish.v
theories/SpecView.v
theories/SpecWalk.v
theories/SpecWinding.v
theories/TestBasics.v
theories/TestBoolean.v
theories/TestFfi.v
theories/TestIntersects.v
theories/TestIntr.v
theories/TestOffset.v
theories/TestShape.v
theories/TestUtil.v
theories/TestView.v
