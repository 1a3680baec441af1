-Q theories Verif

theories/Vec.v
theories/SpecBezier.v
theories/ModelData.v
theories/ModelWaypoints.v
theories/ModelWaypointsJerk.v
theories/ModelDispatch.v
theories/ProofBezier.v
theories/ProofCurve.v
theories/SpecCom.v
theories/ProofWaypoints.v
theories/ProofWaypoints2.v
theories/ProofWaypoints3.v
theories/ProofWaypointsDec.v
theories/ProofWaypointsErr.v
theories/ProofDispatch.v
theories/PropertiesWaypoints.v
theories/ExamplesWaypoints.v
theories/ModelUtils.v
theories/ModelRows.v
theories/ModelCom.v
theories/SpecTime.v
theories/SpecWp.v
theories/SpecCtr.v
theories/ProofTime.v
theories/ProofTime2.v
theories/ProofRows.v
theories/ProofWp.v
theories/ProofEmit.v
theories/ProofCom.v
theories/PropertiesTime.v
theories/ExamplesTime.v
theories/ProofCom2.v
theories/ProofCom3.v
theories/PropertiesCom.v
theories/ExamplesCom.v
theories/ModelNd.v
theories/ModelCont.v
theories/ProofNd.v
theories/SpecCont.v
theories/ProofCont.v
theories/ProofCont2.v
theories/ProofCont3.v
theories/ProofCont4.v
theories/ProofCont5.v
theories/ProofCont6.v
theories/ProofCont7.v
theories/ProofCont8.v
theories/ProofCont9.v
theories/ProofCont10.v
theories/ProofCont11.v
theories/PropertiesCont.v
theories/ExamplesCont.v
theories/ModelSolver.v
theories/SpecSolver.v
theories/ProofSolver.v
theories/ProofSolver2.v
theories/PropertiesSolver.v
theories/ExamplesSolver.v
theories/ModelTraj.v
theories/SpecTraj.v
theories/ProofTraj.v
theories/ProofTraj2.v
theories/ProofTraj3.v
theories/PropertiesTraj.v
theories/ExamplesTraj.v
theories/Model0Step.v
theories/Spec0Step.v
theories/Proof0Step.v
theories/Proof0Step2.v
theories/Proof0Step3.v
theories/Properties0Step.v
theories/Examples0Step.v
theories/ModelEff.v
theories/SpecEff.v
theories/ProofEff.v
theories/ProofEff2.v
theories/ProofEff3.v
theories/ProofEff4.v
theories/ProofEff5.v
theories/ProofEff6.v
theories/ProofEff7.v
theories/ProofEff8.v
theories/ProofEff9.v
theories/ProofEff10.v
theories/ProofEff11.v
theories/ProofEff12.v
theories/ProofEff13.v
theories/ProofEff14.v
theories/ProofEff15.v
theories/PropertiesEff.v
theories/ExamplesEff.v
theories/ModelQp.v
theories/SpecQp.v
theories/ProofQp.v
theories/ProofQp2.v
theories/ProofQp3.v
theories/ProofQp4.v
theories/ProofQp5.v
theories/ProofQp6.v
theories/ProofQp7.v
theories/ProofQp8.v
theories/ProofQp9.v
theories/ProofQp10.v
theories/ProofQp11.v
theories/ProofQp12.v
theories/ProofQp13.v
theories/SpecEnd.v
theories/ProofEnd.v
theories/ProofQp14.v
theories/ProofQp15.v
theories/PropertiesQp.v
theories/ExamplesQp.v
theories/ModelQpObj.v
theories/SpecQpObj.v
theories/ProofQpObj.v
theories/ProofQpObj2.v
theories/ProofQpObj3.v
theories/ProofQpObj4.v
theories/ProofQpObj5.v
theories/ProofQpObj6.v
theories/ProofQpObj7.v
theories/PropertiesQpObj.v
theories/ExamplesQpObj.v
theories/ProofEnd2.v
theories/ProofEnd3.v
theories/ProofEnd4.v
theories/PropertiesEnd.v
theories/ExamplesEnd.v
theories/ModelHeap.v
theories/SpecHeap.v
theories/ProofHeap.v
theories/ProofHeap2.v
theories/ProofHeap3.v
theories/ProofHeap4.v
theories/ProofHeap5.v
theories/PropertiesHeap.v
theories/ExamplesHeap.v
theories/ModelEffCost.v
theories/SpecEffCost.v
theories/ProofEffCost.v
theories/PropertiesEffCost.v
theories/ExamplesEffCost.v
theories/SpecEnd2.v
theories/ProofEnd5.v
theories/ProofEnd6.v
theories/ProofEnd7.v
theories/ProofEnd8.v
theories/PropertiesEnd2.v
theories/ExamplesEnd2.v
theories/SpecEnd3.v
theories/ProofQp16.v
theories/ProofEnd9.v
theories/ProofEnd10.v
theories/PropertiesEnd3.v
theories/ExamplesEnd3.v
theories/SpecEnd4.v
theories/ProofEnd11.v
theories/ProofEnd12.v
theories/PropertiesEnd4.v
theories/ExamplesEnd4.v
theories/ModelPy.v
theories/SpecPy.v
theories/SpecPy2.v
theories/ProofPy.v
theories/ProofPy2.v
theories/ProofPy3.v
theories/ProofPy4.v
theories/PropertiesPy.v
theories/PropertiesPy2.v
theories/ExamplesPy.v
theories/ProofSolves.v
theories/ExamplesSolves.v
theories/SpecDec.v
theories/ProofEnd13.v
theories/ProofDec.v
theories/PropertiesDec.v
theories/ExamplesDec.v
theories/SpecDec2.v
theories/ProofEnd14.v
theories/ProofEnd15.v
theories/PropertiesDec2.v
theories/ExamplesDec2.v
theories/SpecQp2.v
theories/ProofQp17.v
theories/ProofQp18.v
theories/ProofQp19.v
theories/PropertiesQp2.v
theories/ExamplesQp2.v
theories/SpecForce.v
theories/ProofForce.v
theories/ProofForce2.v
theories/ProofForce3.v
theories/ProofForce4.v
theories/PropertiesForce.v
theories/ExamplesForce.v
theories/SpecForce2.v
theories/ProofForce5.v
theories/ProofForce6.v
theories/PropertiesForce2.v
theories/ExamplesForce2.v
theories/Double.v
theories/ModelDouble.v
theories/SpecDouble.v
theories/ProofDouble.v
theories/ProofDouble2.v
theories/ProofDouble3.v
theories/ProofDouble4.v
theories/ProofDouble5.v
theories/PropertiesDouble.v
theories/ExamplesDouble.v
theories/SpecDouble2.v
theories/ProofDouble6.v
theories/ProofDouble7.v
theories/PropertiesDouble2.v
theories/ExamplesDouble2.v
theories/SpecGap.v
theories/ProofGap.v
theories/ProofGap2.v
theories/ProofGap3.v
theories/PropertiesGap.v
theories/ExamplesGap.v
theories/SpecGap0.v
theories/ProofGap0.v
theories/PropertiesGap0.v
theories/ExamplesGap0.v
theories/SpecGapEnd.v
theories/ProofGapEnd.v
theories/PropertiesGapEnd.v
theories/ExamplesGapEnd.v
theories/SpecGapDouble.v
theories/ProofGapDouble.v
theories/PropertiesGapDouble.v
theories/ExamplesGapDouble.v
theories/ModelPyEff.v
theories/ProofPyEff.v
theories/PropertiesPyEff.v
theories/ExamplesPyEff.v
theories/ModelPtsDouble.v
theories/SpecPtsDouble.v
theories/ProofPtsDouble.v
theories/ProofPtsDouble2.v
theories/ProofPtsDouble3.v
theories/ProofPtsDouble4.v
theories/ProofPtsDouble5.v
theories/ProofPtsDouble6.v
theories/ProofPtsDouble7.v
theories/ProofPtsDouble8.v
theories/ProofPtsDouble9.v
theories/PropertiesPtsDouble.v
theories/ExamplesPtsDouble.v
theories/ModelCoefDouble.v
theories/SpecCoefDouble.v
theories/ProofCoefDouble.v
theories/ProofCoefDouble2.v
theories/ProofCoefDouble3.v
theories/ProofCoefDouble4.v
theories/ProofCoefDouble5.v
theories/PropertiesCoefDouble.v
theories/ExamplesCoefDouble.v
theories/ModelRowsDouble.v
theories/SpecRowsDouble.v
theories/ProofRowsDouble.v
theories/ProofRowsDouble2.v
theories/ProofRowsDouble3.v
theories/ProofRowsDouble4.v
theories/ProofRowsDouble5.v
theories/PropertiesRowsDouble.v
theories/ExamplesRowsDouble.v
theories/SpecPlanDouble.v
theories/ProofPlanDouble.v
theories/ProofPlanDouble2.v
theories/PropertiesPlanDouble.v
theories/ExamplesPlanDouble.v
theories/SpecBest.v
theories/ProofBest.v
theories/ProofBest2.v
theories/PropertiesBest.v
theories/ExamplesBest.v
theories/SpecMove.v
theories/ProofMove.v
theories/ProofMove2.v
theories/PropertiesMove.v
theories/ExamplesMove.v
theories/SpecReverse.v
theories/ProofReverse.v
theories/ProofReverse2.v
theories/PropertiesReverse.v
theories/ExamplesReverse.v
theories/SpecUnits.v
theories/ProofUnits.v
theories/ProofUnits2.v
theories/PropertiesUnits.v
theories/ExamplesUnits.v
theories/ProofCom4.v
theories/ProofComFlag.v
theories/PropertiesCom2.v
theories/ExamplesCom2.v
theories/SpecFailed.v
theories/ProofFailed.v
theories/PropertiesFailed.v
theories/ExamplesFailed.v
theories/SpecCut.v
theories/ProofCut.v
theories/ProofCut2.v
theories/PropertiesCut.v
theories/ExamplesCut.v
theories/ProofDepends.v
theories/ProofDepends2.v
theories/PropertiesDepends.v
theories/ExamplesDepends.v
theories/ProofAccept.v
theories/PropertiesAccept.v
theories/ExamplesAccept.v
theories/SpecMix.v
theories/ProofMix.v
theories/PropertiesMix.v
theories/ExamplesMix.v
theories/Spec0Best.v
theories/Proof0Best.v
theories/Proof0Best2.v
theories/Properties0Best.v
theories/Examples0Best.v
theories/Spec0Move.v
theories/Proof0Move.v
theories/Proof0Move2.v
theories/Properties0Move.v
theories/Examples0Move.v
theories/SpecEffFive.v
theories/ProofEffFive.v
theories/PropertiesEffFive.v
theories/ExamplesEffFive.v
theories/ProofEffFinal.v
theories/PropertiesEffFinal.v
theories/ExamplesEffFinal.v
theories/ProofEffBest.v
theories/PropertiesEffBest.v
theories/ExamplesEffBest.v
theories/ProofDim.v
theories/PropertiesDim.v
theories/ExamplesDim.v
theories/SpecEffAxis.v
theories/ProofEffAxis.v
theories/ProofEffAxis2.v
theories/ProofEffAxis3.v
theories/ProofEffAxis4.v
theories/PropertiesEffAxis.v
theories/ExamplesEffAxis.v
theories/SpecEffTurn.v
theories/ProofEffTurn.v
theories/ProofEffTurn2.v
theories/PropertiesEffTurn.v
theories/ExamplesEffTurn.v
theories/SpecEffMove.v
theories/ProofEffMove.v
theories/ProofEffMove2.v
theories/ProofEffMove3.v
theories/ProofEffMove4.v
theories/PropertiesEffMove.v
theories/ExamplesEffMove.v
theories/ProofEffWeight.v
theories/ProofEffWeight2.v
theories/ProofEffWeight3.v
theories/PropertiesEffWeight.v
theories/ExamplesEffWeight.v
theories/ProofJerkCom.v
theories/ProofJerkCom2.v
theories/ProofJerkCom3.v
theories/PropertiesJerkCom.v
theories/ExamplesJerkCom.v
theories/ProofAnySolver.v
theories/ProofAnySolver2.v
theories/ProofAnySolver3.v
theories/PropertiesAnySolver.v
theories/ExamplesAnySolver.v
theories/SpecIgnore.v
theories/ProofIgnore.v
theories/ProofIgnore2.v
theories/ProofIgnore3.v
theories/PropertiesIgnore.v
theories/ExamplesIgnore.v
theories/ProofEffReverse.v
theories/PropertiesEffReverse.v
theories/ExamplesEffReverse.v
