-Q theories Verif
theories/Fw.v
theories/Spec.v
theories/FwLemmas.v
theories/SpecLemmas.v
theories/Mul.v
theories/MulProofs.v
theories/Inst.v
theories/InstR.v
theories/PropsMul.v
theories/Flopoco.v
theories/FlopocoLemmas.v
theories/FlopocoProofs.v
theories/CompareProofs.v
theories/ConvertProofs.v
theories/PropsFlopoco.v
theories/ValueLemmas.v
theories/AddSingle.v
theories/AddLemmas.v
theories/AddSingleProofs.v
theories/AddSingleProofs2.v
theories/AddSingleProofs3.v
theories/AddSingleProofs4.v
theories/PropsAdd.v
theories/AddDual.v
theories/AddDualProofs.v
theories/AddDualProofs2.v
theories/AddDualProofs3.v
theories/AddDualProofs4.v
theories/AddDualProofs5.v
theories/AddDualProofs6.v
theories/PropsAddDual.v
theories/Div.v
theories/DivProofs.v
theories/DivProofs2.v
theories/DivProofs3.v
theories/DivV2Proofs.v
theories/PropsDiv.v
theories/Ieee.v
theories/IeeeProofs.v
theories/IeeeProofs2.v
theories/PropsIeee.v
theories/SpecDot.v
theories/Dot.v
theories/DotProofs.v
theories/DotProofs2.v
theories/DotProofs3.v
theories/DotProofs4.v
theories/DotProofs5.v
theories/DotProofs6.v
theories/DotProofs7.v
theories/PropsDot.v
theories/SpecFma.v
theories/Fma.v
theories/FmaProofs.v
theories/FmaProofs2.v
theories/FmaProofs3.v
theories/PropsFma.v
theories/SpecFw.v
theories/FwWord.v
theories/FwPair.v
theories/FwWordProofs.v
theories/FwWordProofs2.v
theories/FwWordProofs3.v
theories/FwPairProofs.v
theories/PropsFw.v
theories/SpecCt.v
theories/Lcg.v
theories/LcgProofs.v
theories/LcgProofs2.v
theories/PropsLcg.v
theories/CtVec.v
theories/CtVecProofs.v
theories/CtVecProofs2.v
theories/LutOpt.v
theories/LutOptProofs.v
theories/LutOptProofs2.v
theories/CtVecProofs3.v
theories/PropsCtVec.v
theories/SpecHeap.v
theories/Heap.v
theories/HeapProofs.v
theories/HeapProofs2.v
theories/HeapProofs3.v
theories/PropsHeap.v
theories/SpecFix.v
theories/Fixval.v
theories/FixvalProofs.v
theories/FixvalProofs2.v
theories/PropsFix.v
theories/InvNr.v
theories/InvNrProofs.v
theories/InvNrProofs2.v
theories/SpecInv.v
theories/InvNrProofs3.v
theories/InvNrProofs4.v
theories/PropsInv.v
theories/MpfrLib.v
theories/Mpfr.v
theories/MpfrProofs.v
theories/SpecMpfr.v
theories/MpfrProofs2.v
theories/MpfrProofs3.v
theories/PropsMpfr.v
theories/SpecDbl.v
theories/Dbl.v
theories/DblProofs.v
theories/DblProofs2.v
theories/DblProofs3.v
theories/PropsDbl.v
theories/SpecFlocq.v
theories/SpecReal.v
theories/RealProofs.v
theories/PropsReal.v
theories/Spec754.v
theories/SoftFloat.v
theories/Sf754Lemmas.v
theories/SfProofs1.v
theories/SfProofs2.v
theories/SfProofs3.v
theories/SfProofs4.v
theories/SfProofs5.v
theories/SfProofs6.v
theories/SfProofs7.v
theories/SfProofs8.v
theories/SfProofs9.v
theories/SfProofs10.v
theories/PropsSoftFloat.v
theories/SpecFlocq754.v
theories/PropsSoftFloatReal.v
theories/SpecV4.v
theories/AddSingleAlt.v
theories/AddAltProofs.v
theories/AddAltProofs2.v
theories/AddAltProofs3.v
theories/AddAltProofs4.v
theories/PropsAddAlt.v
theories/App.v
theories/SpecApp.v
theories/AppProofs.v
theories/AppProofs2.v
theories/AppProofs3.v
theories/AppProofs4.v
theories/AppProofs5.v
theories/AppProofs6.v
theories/AppProofs7.v
theories/AppProofs8.v
theories/AppProofs9.v
theories/PropsApp.v
theories/MpfrRange.v
theories/SpecPolicy.v
theories/Policy.v
theories/PolicyProofs.v
theories/PolicyProofs2.v
theories/PolicyProofs3.v
theories/PolicyProofs4.v
theories/PolicyProofs5.v
theories/PolicyProofs6.v
theories/PolicyProofs7.v
theories/PropsPolicy.v
theories/HlsInt.v
theories/Hls.v
theories/HlsProofs.v
theories/HlsProofs2.v
theories/HlsProofs3.v
theories/PropsHls.v
theories/Adders.v
theories/AddersProofs.v
theories/PropsAdders.v
theories/Source.v
theories/SpecSource.v
theories/SourceProofs.v
theories/PropsSource.v
theories/WrapProofs.v
theories/PropsWrap.v
theories/RefDot.v
theories/SpecRefDot.v
theories/RefDotProofs.v
theories/RefDotProofs2.v
theories/RefDotProofs3.v
theories/RefDotProofs4.v
theories/RefDotProofs5.v
theories/RefDotProofs6.v
theories/RefDotProofs7.v
theories/RefDotProofs8.v
theories/RefDotProofs9.v
theories/RefDotProofs10.v
theories/PropsRefDot.v
theories/SpecTests.v
theories/Tests.v
theories/TestsProofs.v
theories/TestsProofs2.v
theories/TestsProofs3.v
theories/TestsProofs4.v
theories/FmaProofs4.v
theories/FmaProofs5.v
theories/TestsProofs5.v
theories/TestsProofs6.v
theories/TestsProofs7.v
theories/PropsTests.v
theories/SpecComposite.v
theories/Composite.v
theories/CompositeProofs.v
theories/CompositeProofs2.v
theories/CompositeProofs3.v
theories/PropsComposite.v
theories/SpecLimits.v
theories/Limits.v
theories/LimitsProofs.v
theories/PropsLimits.v
theories/Circuit.v
theories/CircuitProofs.v
theories/CircuitMul.v
theories/CircuitMulProofs.v
theories/CircuitAdd.v
theories/CircuitAddProofs.v
theories/CircuitDiv.v
theories/CircuitDivProofs.v
theories/CircuitLimits.v
theories/CircuitMain.v
theories/PropsCircuit.v
theories/CircuitCmp.v
theories/CircuitCmpProofs.v
theories/CircuitMain2.v
theories/CircuitDual.v
theories/CircuitDualProofs.v
theories/CircuitMain3.v
theories/CircuitDot.v
theories/CircuitDotProofs.v
theories/CircuitMain4.v
theories/OrderProofs.v
theories/OrderSingle.v
theories/SpecOrder.v
theories/OrderProofs2.v
theories/OrderProofs3.v
theories/PropsOrder.v
theories/ExactProofs.v
theories/ExactProofs2.v
theories/ExactProofs3.v
theories/SpecErrFree.v
theories/ErrFreeProofs.v
theories/ErrFreeReal.v
theories/ErrFreeProofs2.v
theories/PropsExact.v
theories/PropsErrFree.v
theories/SpecSf754.v
theories/SfReal1.v
theories/SfReal2.v
theories/SfReal3.v
theories/SfReal4.v
theories/PropsSfOrder.v
theories/SpecFtz.v
theories/FtzProofs.v
theories/FtzProofs2.v
theories/PropsFtz.v
theories/SelfTest.v
theories/SpecSelf.v
theories/SelfTestProofs.v
theories/PropsSelfTest.v
theories/Cores.v
theories/SpecCores.v
theories/CoresProofs.v
theories/PropsCores.v
theories/WidthProofs.v
theories/PropsWidth.v
theories/SpecNan.v
theories/NanProofs.v
theories/NanProofs2.v
theories/PropsNan.v
theories/WideProofs.v
theories/WideProofs2.v
theories/PropsWide.v
theories/SfPrim.v
theories/SpecPrim.v
theories/SfPrimProofs.v
theories/SfPrimProofs2.v
theories/PropsPrim.v
theories/SfConfig.v
theories/SfConfigProofs.v
theories/PropsSfConfig.v
theories/Traits.v
theories/SpecTraits.v
theories/TraitsProofs.v
theories/PropsTraits.v
theories/HeapTests.v
theories/SpecHeapSum.v
theories/HeapTestsProofs.v
theories/PropsHeapTests.v
theories/Intval.v
theories/SpecIntval.v
theories/IntvalProofs.v
theories/PropsIntval.v
theories/Spec754Mode.v
theories/SoftFloatMode.v
theories/SpecSfMode.v
theories/SfmProofs1.v
theories/SfmProofs2.v
theories/SfmProofs3.v
theories/SfmProofs4.v
theories/SpecFlocq754Mode.v
theories/PropsSfMode.v
theories/PropsSfModeReal.v
theories/SqrtProofs.v
theories/ClassProofs.v
theories/PropsSqrt.v
theories/PropsClass.v
theories/PropsEntry.v
theories/SpecEnclose.v
theories/EncloseProofs.v
theories/EncloseProofs2.v
theories/PropsEnclose.v
theories/SoftFloatFlags.v
theories/SpecFlags.v
theories/FlagProofs1.v
theories/FlagProofs2.v
theories/FlagProofs3.v
theories/FlagProofs4.v
theories/FlagProofs5.v
theories/PropsFlags.v
theories/SpecFlagTells.v
theories/FlagTells.v
theories/PropsFlagTells.v
theories/SoftFloatFlagsMode.v
theories/SpecFlagsMode.v
theories/FlagmProofs1.v
theories/FlagmProofs2.v
theories/FlagmProofs3.v
theories/FlagmProofs4.v
theories/FlagmProofs5.v
theories/FlagmNear.v
theories/PropsFlagsMode.v
theories/SpecStdModel.v
theories/StdModel.v
theories/PropsStdModel.v
theories/ModeOrder.v
theories/PropsModeOrder.v
