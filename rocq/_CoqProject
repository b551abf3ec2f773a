-Q theories Verif
theories/Prelude.v
theories/MaskSpec.v
theories/BitMask.v
theories/BitMaskProofs.v
theories/PropsMask.v
theories/Abi.v
theories/AbiSpec.v
theories/AbiProofs.v
theories/PropsAbi.v
theories/Align.v
theories/AlignProofs.v
theories/PropsAlign.v
theories/Targets.v
theories/Fixed.v
theories/FixedSpec.v
theories/FixedProofs.v
theories/Profile.v
theories/FixedStorage.v
theories/FixedApply.v
theories/FixedMixed.v
theories/FixedMasks.v
theories/FixedTop.v
theories/PropsFixed.v
theories/Mem.v
theories/MemSpec.v
theories/MemProofs.v
theories/PropsMem.v
theories/Reduce.v
theories/ReduceSpec.v
theories/ReduceProofs.v
theories/ReduceFixed.v
theories/ReduceTop.v
theories/PropsReduce.v
theories/X86Lanes.v
theories/X86Shift.v
theories/X86ShiftSpec.v
theories/X86Bits.v
theories/X86ShiftProofs.v
theories/X86ShiftVProofs.v
theories/PpcShift.v
theories/PpcShiftProofs.v
theories/PropsX86Shift.v
theories/X86Mul.v
theories/X86MulProofs.v
theories/X86Div.v
theories/X86DivProofs.v
theories/PropsX86Mul.v
theories/KMask.v
theories/KMaskSpec.v
theories/KMaskProofs.v
theories/PropsKMask.v
theories/X86Mask.v
theories/X86MaskSpec.v
theories/X86MaskProofs.v
theories/ConstRed.v
theories/ConstRedProofs.v
theories/C43Proofs.v
theories/PropsX86Mask.v
theories/BoolStore.v
theories/BoolStoreSpec.v
theories/BoolStoreProofs.v
theories/PropsBoolStore.v
theories/IntDiv.v
theories/IntDivSpec.v
theories/IntDivProofs.v
theories/PropsIntDiv.v
theories/Convert.v
theories/ConvertSpec.v
theories/ConvertProofs.v
theories/ConvertCheck.v
theories/ConvertTop.v
theories/PropsConvert.v
theories/Split.v
theories/SplitSpec.v
theories/SplitProofs.v
theories/SplitTop.v
theories/SplitFinal.v
theories/PropsSplit.v
theories/FloatSpec.v
theories/FloatBits.v
theories/FloatRoundSpec.v
theories/FloatArith.v
theories/FloatRound.v
theories/FloatMath.v
theories/FloatMathSpec.v
theories/FloatMathProofs.v
theories/FloatFrexp.v
theories/FloatLogb.v
theories/FloatMathTop.v
theories/PropsMath.v
theories/FloatProofs.v
theories/FloatTop.v
theories/FloatStorage.v
theories/PropsFloat.v
theories/FloatArithProofs.v
theories/FloatRoundProofs.v
theories/FloatRoundTop.v
theories/FloatSign.v
theories/PropsRound.v
theories/ScalarSpec.v
theories/Scalar.v
theories/ScalarProofs.v
theories/PropsScalar.v
theories/RefsSpec.v
theories/Refs.v
theories/RefsProofs.v
theories/PropsRefs.v
theories/NarrowSpec.v
theories/Narrow.v
theories/NarrowProofs.v
theories/NarrowExact.v
theories/NarrowTop.v
theories/PropsNarrow.v
theories/Padding.v
theories/PaddingSpec.v
theories/PaddingProofs.v
theories/PaddingReduce.v
theories/PaddingTop.v
theories/PaddingMem.v
theories/PropsPadding.v
theories/Neon.v
theories/NeonSpec.v
theories/NeonProofs.v
theories/NeonBits.v
theories/PropsNeon.v
theories/MaskConv.v
theories/MaskConvSpec.v
theories/MaskConvProofs.v
theories/MaskConvBits.v
theories/MaskConvTop.v
theories/PropsMaskConv.v
theories/XConv.v
theories/XConvSpec.v
theories/XConvAbs.v
theories/XConvLanes.v
theories/XConvProofs.v
theories/XConvTop.v
theories/PropsXConv.v
theories/SseWiden.v
theories/SseWidenSpec.v
theories/SseWidenProofs.v
theories/PropsSseWiden.v
theories/ConvertRel.v
theories/ConvertRelTop.v
theories/XCast.v
theories/XCastSpec.v
theories/XCastStorage.v
theories/XCastProofs.v
theories/PropsXCast.v
theories/BoolLoad.v
theories/BoolLoadSpec.v
theories/BoolLoadProofs.v
theories/PropsBoolLoad.v
theories/HypotSpec.v
theories/Hypot.v
theories/HypotArith.v
theories/HypotRound.v
theories/HypotScale.v
theories/HypotCore.v
theories/HypotTop.v
theories/HypotNearest.v
theories/PropsHypot.v
theories/SinCosSpec.v
theories/SinCos.v
theories/SinCosProofs.v
theories/SinCosTop.v
theories/SinCosZero.v
theories/SinCosInt.v
theories/PropsSinCos.v
theories/SinCosReal.v
theories/SinCosBound.v
theories/SinCosTaylor.v
theories/SinCosPoly.v
theories/SinCosFold.v
theories/SinCosFold64.v
theories/SinCosHuge.v
theories/SinCosNear.v
theories/SinCosNearSpec.v
theories/SinCosNearTop.v
theories/SinCosDirected.v
theories/PropsSinCosNear.v
theories/Where.v
theories/WhereSpec.v
theories/WhereProofs.v
theories/WhereTop.v
theories/PropsWhere.v
theories/Ldexp.v
theories/LdexpSpec.v
theories/LdexpProofs.v
theories/LdexpTop.v
theories/PropsLdexp.v
theories/ArithOps.v
theories/ArithSpec.v
theories/ArithProofs.v
theories/ArithTop.v
theories/PropsArith.v
theories/Compare.v
theories/CompareSpec.v
theories/CompareProofs.v
theories/CompareTop.v
theories/PropsCompare.v
theories/ShiftRight.v
theories/ShiftRightSpec.v
theories/ShiftRightProofs.v
theories/ShiftRightTop.v
theories/PropsShiftRight.v
theories/MathCall.v
theories/MathCallSpec.v
theories/MathCallProofs.v
theories/PropsMathCall.v
theories/PpcMask.v
theories/PpcMaskSpec.v
theories/PpcMaskProofs.v
theories/PropsPpcMask.v
theories/Threshold.v
theories/ThresholdSpec.v
theories/ThresholdProofs.v
theories/ThresholdDigits.v
theories/PropsThreshold.v
theories/PadShiftSpec.v
theories/PadShiftProofs.v
theories/PropsPadShift.v
theories/BitOps.v
theories/BitOpsSpec.v
theories/BitOpsProofs.v
theories/PropsBitOps.v
theories/FixedFrexp.v
theories/FixedFrexpSpec.v
theories/FixedFrexpProofs.v
theories/PropsFixedFrexp.v
theories/FixedModf.v
theories/FixedModfSpec.v
theories/FixedModfProofs.v
theories/PropsFixedModf.v
theories/FixedHypot.v
theories/FixedHypotSpec.v
theories/FixedHypotProofs.v
theories/PropsFixedHypot.v
theories/FixedFpclassify.v
theories/FixedFpclassifySpec.v
theories/FixedFpclassifyProofs.v
theories/PropsFixedFpclassify.v
theories/FixedArith.v
theories/FixedArithSpec.v
theories/FixedArithProofs.v
theories/PropsFixedArith.v
