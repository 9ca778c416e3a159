-Q theories Verif
theories/Base.v
theories/Var.v
theories/Binary.v
theories/Format.v
theories/Parse.v
theories/Typmod.v
theories/Convert.v
theories/Num.v
theories/Spec.v
theories/QDec.v
theories/Digits.v
theories/Arith.v
theories/Strip.v
theories/Round.v
theories/Trunc.v
theories/AddSub.v
theories/Signed.v
theories/CeilFloor.v
theories/Codec.v
theories/Make.v
theories/SpecApi.v
theories/SpecText.v
theories/Api1.v
theories/Mul.v
theories/Div.v
theories/DivQ.v
theories/Api2.v
theories/Api3.v
theories/Api4.v
theories/Laws.v
theories/Laws2.v
theories/OrderLaws.v
theories/Samples.v
theories/P_Codec.v
theories/P_Arith.v
theories/P_Round.v
theories/P_Order.v
theories/Mut.v
theories/Exact.v
theories/SpecSerde.v
theories/Serde.v
theories/P_Mut.v
theories/Text.v
theories/ParseText.v
theories/ParseVal.v
theories/ParseApi.v
theories/ParseOver.v
theories/P_Parse.v
theories/FormatText.v
theories/FormatApi.v
theories/Normalize.v
theories/P_Format.v
theories/ConvertApi.v
theories/FactBound.v
theories/Factorial.v
theories/P_Convert.v
theories/Flt.v
theories/FltFacts.v
theories/Transc.v
theories/DivFastEst.v
theories/DivFastInt.v
theories/DivFastStep.v
theories/DivFastLoop.v
theories/DivFast.v
theories/SpecRoot.v
theories/MulNear.v
theories/Sqrt.v
theories/SqrtApi.v
theories/SqrtConv.v
theories/SqrtLoop.v
theories/SqrtTiny.v
theories/SpecLibm.v
theories/PowLoop.v
theories/Sci.v
theories/SciText.v
theories/SpecPow.v
theories/LibmSample.v
theories/PowInt.v
theories/PowApi.v
theories/PowSmall.v
theories/PowMin.v
theories/PowNear.v
theories/PowAcc.v
theories/PowNeg.v
theories/P_Sci.v
theories/P_Pow.v
theories/SpecProfile.v
theories/Profile.v
theories/Profile2.v
theories/ProfileApi.v
theories/P_Profile.v
theories/SpecDouble.v
theories/SpecFloat.v
theories/LogApi.v
theories/ExpApi.v
theories/P_Log.v
theories/Data.v
theories/DataSim.v
theories/DataBuf.v
theories/SpecData.v
theories/DataApi.v
theories/DataDebug.v
theories/P_Data.v
theories/Heap.v
theories/HeapSim.v
theories/HeapApi.v
theories/SpecHeap.v
theories/HeapProg.v
theories/P_Heap.v
theories/Write.v
theories/SpecWrite.v
theories/WriteApi.v
theories/P_Write.v
theories/LnReal.v
theories/SpecLn.v
theories/LnOps.v
theories/LnSqrt.v
theories/LnQR.v
theories/LnRed.v
theories/LnSeries.v
theories/LnApi.v
theories/LnSig.v
theories/LnNear.v
theories/P_Ln.v
theories/ExpReal.v
theories/ExpRed.v
theories/ExpSeries.v
theories/ExpSquare.v
theories/ExpAcc.v
theories/ExpFin.v
theories/P_Exp.v
theories/Float.v
theories/FloatGrid.v
theories/FloatF32.v
theories/FloatText.v
theories/FloatApi.v
theories/FloatTrip.v
theories/FloatSample.v
theories/FloatSound.v
theories/FloatRange.v
theories/P_Float.v
theories/LogAcc.v
theories/LogFin.v
theories/Closure.v
theories/Reach.v
theories/P_Reach.v
theories/P_LogBase.v
theories/PowFrac.v
theories/PowFin.v
theories/P_PowFrac.v
theories/SqrtEnd.v
theories/P_Sqrt.v
theories/Mach.v
theories/SpecMach.v
theories/MachSim.v
theories/MachAdd.v
theories/MachMul.v
theories/MachDiv.v
theories/MachApi.v
theories/P_Mach.v
theories/MachText.v
theories/MachParse.v
theories/MachConv.v
theories/MachTextApi.v
theories/P_MachText.v
theories/MachFast.v
theories/MachDivFast.v
theories/MachSqrt.v
theories/P_MachFast.v
theories/MachPow.v
theories/MachPowSim.v
theories/MachPowApi.v
theories/P_MachPow.v
theories/LnStep.v
theories/MachLn.v
theories/MachLnSim.v
theories/MachLnTail.v
theories/MachLnApi.v
theories/P_MachLn.v
theories/ExpStep.v
theories/MachExp.v
theories/MachExpSim.v
theories/MachExpApi.v
theories/P_MachExp.v
theories/LibmJoint.v
theories/MachFrac.v
theories/MachFracSim.v
theories/MachNeg.v
theories/MachFracApi.v
theories/P_MachFrac.v
theories/MachMut.v
theories/MachMutSim.v
theories/MachMutApi.v
theories/P_MachMut.v
theories/MachRest.v
theories/MachRestApi.v
theories/P_MachRest.v
theories/MachFloat.v
theories/MachFloatApi.v
theories/P_MachFloat.v
theories/Errors.v
theories/P_Errors.v
theories/SpecMachReach.v
theories/MachReach.v
theories/P_MachReach.v
theories/SpecFormula.v
theories/Formula.v
theories/P_Formula.v
