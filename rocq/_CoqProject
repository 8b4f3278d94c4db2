-Q theories Verif

theories/Mem.v
theories/Scalar.v
theories/View.v
theories/Spec.v
theories/Wp.v
theories/Loops.v
theories/Sums.v
theories/Alg.v
theories/Inst.v
theories/Blas1.v
theories/PfBlas1.v
theories/PfView.v
theories/PfGivensApply.v
theories/Idx.v
theories/Blas2.v
theories/PfBlas2.v
theories/PfTrmv.v
theories/PfTrsv.v
theories/PfRank.v
theories/PfBlas2b.v
theories/Blas3.v
theories/PfBlas3.v
theories/PfTrsm.v
theories/PfInplace.v
theories/PfBlas3b.v
theories/Par.v
theories/PfPar.v
theories/KK.v
theories/SpecK.v
theories/PfKK.v
theories/PfKK2.v
theories/PfKK3.v
theories/PfKK4.v
theories/PfKK5.v
theories/PfKK6.v
theories/Norm.v
theories/SpecR.v
theories/PfNorm.v
theories/PfFrob.v
theories/Givens.v
theories/SpecG.v
theories/PfGivens.v
theories/PfGivensC.v
theories/Ieee.v
theories/PfGivensF.v
theories/PfGivensX.v
theories/PropView.v
theories/PropBlas1.v
theories/PropBlas2.v
theories/PropNorm.v
theories/PropGivens.v
theories/PropBlas3.v
theories/PropKK.v
theories/Red.v
theories/SpecRed.v
theories/KKNorm.v
theories/PfRed.v
theories/PfKK7.v
theories/PropKKN.v
theories/Dispatch.v
theories/SpecDispatch.v
theories/PfDispatch.v
theories/PropDispatch.v
theories/SpecOp.v
theories/PfOp.v
theories/PropOp.v
theories/SpecF.v
theories/PfIeee.v
theories/SpecSub.v
theories/SpecInp.v
theories/PfSub.v
theories/PfIeeeSub.v
theories/PfFloat.v
theories/PropFloat.v
theories/PfIeeeNorm.v
theories/PfIeeeNan.v
theories/PfIeeeSum.v
theories/PfIdxNan.v
theories/PfIeeeRed.v
theories/PropNormF.v
theories/Mixed.v
theories/PfMixed.v
theories/Int.v
theories/SpecI.v
theories/PfInt.v
theories/PfInt2.v
theories/PropInt.v
theories/PropMixed.v
theories/KKBlas.v
theories/SpecKB.v
theories/PfKKBlas.v
theories/PropKKBlas.v
theories/SpecF2.v
theories/PfApprox.v
theories/PfFloat2.v
theories/PfInplaceF.v
theories/IeeeC.v
theories/SpecC.v
theories/PfComplex.v
theories/PfComplexOps.v
theories/PfComplexSub.v
theories/PropFloat2.v
theories/PropInplace.v
theories/PropComplex.v
theories/PropComplexSub.v
theories/Static.v
theories/LayoutG.v
theories/SpecM.v
theories/PfMisc.v
theories/PropMisc.v
theories/SpecGF.v
theories/PfGivensE.v
theories/PropGivensF.v
theories/SpecMx.v
theories/PfMx.v
theories/PfMxOps.v
theories/PropMx.v
theories/Proxy.v
theories/SpecP.v
theories/PfProxy.v
theories/PropProxy.v
theories/AnyRank.v
theories/SpecAR.v
theories/PfAnyRank.v
theories/PropAnyRank.v
theories/Typed.v
theories/SpecT.v
theories/PfTyped.v
theories/PropTyped.v
theories/TypedProd.v
theories/PfTypedProd.v
theories/PropTypedProd.v
theories/Async.v
theories/SpecA.v
theories/PfAsync.v
theories/PropAsync.v
theories/Ints.v
theories/SpecI2.v
theories/PfInts.v
theories/PfInts2.v
theories/PropInts.v
theories/Counter.v
theories/SpecCt.v
theories/PfCounter.v
theories/PfCounter2.v
theories/PropCounter.v
theories/SpecRace.v
theories/PfRace.v
theories/PfFoot.v
theories/PropRace.v
theories/SpecRel.v
theories/PfRel.v
theories/PfRel2.v
theories/PropRel.v
theories/SpecNan.v
theories/PfNan.v
theories/PfNanI.v
theories/PropNan.v
theories/Packed.v
theories/SpecPacked.v
theories/PfPacked.v
theories/PfPackedOps.v
theories/PfPackedK.v
theories/PropPacked.v
theories/Kinds.v
theories/SpecKinds.v
theories/PfKinds.v
theories/PropKinds.v
theories/Fma.v
theories/SpecFma.v
theories/PfFma.v
theories/PfFma2.v
theories/PfFmaRel.v
theories/PropFma.v
theories/PfFrob2.v
theories/PfGivensC2.v
theories/PfTrsmB.v
theories/PfIeeeNan2.v
theories/MapIdx.v
theories/SpecMi.v
theories/PfMapIdx.v
theories/PfMapIdx2.v
theories/PropMapIdx.v
theories/SpecAgree.v
theories/PfAgree.v
theories/PfAgree2.v
theories/PropAgree.v
theories/SpecC2.v
theories/PfComplexTri.v
theories/PfComplexOps2.v
theories/PropComplex2.v
theories/PfInt3.v
theories/PropInt2.v
theories/SpecRel2.v
theories/PfRel3.v
theories/PropRel2.v
theories/Payload.v
theories/SpecPay.v
theories/PfPay.v
theories/PropPay.v
theories/SpecOrd.v
theories/PfNormOrd.v
theories/PfNormOrd2.v
theories/PfNormOrd3.v
theories/PfMagOnly.v
theories/PropNormOrd.v
theories/SpecAcc.v
theories/Acc.v
theories/PfAcc.v
theories/PfAcc2.v
theories/PfCost.v
theories/PropAcc.v
theories/PropCost.v
theories/SpecBlk.v
theories/PfBlk.v
theories/PfBlk2.v
theories/PfBlk3.v
theories/PropBlk.v
theories/Trace.v
theories/SpecTrace.v
theories/PfTrace.v
theories/PropTrace.v
theories/SpecMxH.v
theories/PfMxH.v
theories/PfMxHOps.v
theories/MxHInst.v
theories/PropMxH.v
theories/FmaC.v
theories/SpecFmaC.v
theories/PfFmaC.v
theories/PfFmaCOps.v
theories/PfFmaCTri.v
theories/PfFmaCTr.v
theories/PropFmaC.v
theories/SpecMono.v
theories/PfMono.v
theories/PfMonoI.v
theories/PropMono.v
theories/SpecUnit.v
theories/PfUnit.v
theories/PfUnitI.v
theories/PropUnit.v
theories/PfRow.v
theories/PropRow.v
theories/SpecExact.v
theories/PfExactI.v
theories/PfExact.v
theories/PropExact.v
theories/SpecFused.v
theories/PfFusedI.v
theories/PfFused.v
theories/PropFused.v
theories/PfIntSolve.v
theories/PropIntSolve.v
theories/SpecGauss.v
theories/PfGaussI.v
theories/PfGauss.v
theories/PropGauss.v
theories/PfTrace2.v
theories/SpecExactN.v
theories/PfExactN.v
theories/PropExactN.v
