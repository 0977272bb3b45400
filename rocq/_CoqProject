-Q theories Verif

theories/Num.v
theories/Sanity.v
theories/Prob.v
theories/Dens.v
theories/Quant.v
theories/ER.v
theories/ERTac.v
theories/Spec.v
theories/SpecER.v
theories/ClosedElem.v
theories/RealElem.v
theories/B64.v
theories/Laws.v
theories/NanSpec.v
theories/NanPolicy.v
theories/LogForm.v
theories/Support.v
theories/NonNeg.v
theories/Degenerate.v
theories/Witness.v
theories/Discrete.v
theories/DiscreteQ.v
theories/Refute.v
theories/Elem.v
theories/Analysis.v
theories/Erf.v
theories/NormR.v
theories/Norm.v
theories/PowInt.v
theories/GammaFn.v
theories/BetaFn.v
theories/SpecSF.v
theories/FamR.v
theories/FamG.v
theories/FamB.v
theories/WitnessSF.v
theories/BoundR.v
theories/Bound.v
theories/SymR.v
theories/Sym.v
theories/Mono.v
theories/QtR.v
theories/QtBad.v
theories/InvGaussR.v
theories/InvGaussQ.v
theories/NotNan.v
theories/UnitMono.v
theories/Vec.v
theories/SpecVec.v
theories/VecProof.v
theories/VecPlan.v
theories/VecThm.v
theories/Rand.v
theories/RandNan.v
theories/B64R.v
theories/Seed.v
theories/MT.v
theories/Threads.v
theories/VecMap.v
theories/SpecRand.v
theories/RandER.v
theories/RandGamma.v
theories/RandMore.v
theories/Multin.v
theories/RandB64.v
theories/RandB64b.v
theories/B64Unif.v
theories/Session.v
theories/RandWit.v
theories/MxR.v
theories/Multi.v
theories/MultiBart.v
theories/SpecMulti.v
theories/MxLin.v
theories/MultiER.v
theories/MultiRand.v
theories/MultiWit.v
theories/MultiWit2.v
theories/Types.v
theories/SpecTypes.v
theories/TypesProof.v
theories/Ints.v
theories/IntsProof.v
theories/IntsER.v
theories/TypesWit.v
theories/QtPole.v
theories/InvGaussM.v
theories/InvGaussL.v
theories/SpecLaw.v
theories/LawR.v
theories/LawR2.v
theories/LawR3.v
theories/LawR4.v
theories/LawB.v
theories/SpecDraw.v
theories/LawG.v
theories/MultinLaw.v
theories/SpecLim.v
theories/LimR.v
theories/LimE.v
theories/LimR2.v
theories/LimR3.v
theories/LimR4.v
theories/LimR5.v
theories/LimE2.v
theories/LimE3.v
theories/LimR6.v
theories/LimR7.v
theories/LimE4.v
theories/MatVec.v
theories/SpecMat.v
theories/MatVecP.v
theories/MatB64.v
theories/SpecB64.v
theories/B64Ord.v
theories/B64Cdf.v
theories/B64Cdf2.v
theories/B64Cdf3.v
theories/B64CR.v
theories/B64CR2.v
theories/B64CdfBad.v
theories/B64Quant.v
theories/B64Quant2.v
theories/B64QuantBad.v
theories/B64Thm.v
theories/SpecQt.v
theories/QtRefR.v
theories/QtRefE.v
theories/QtRef4.v
theories/QtRef.v
theories/SpecB64D.v
theories/B64Mag.v
theories/B64Dens.v
theories/B64Dens2.v
theories/B64Dens3.v
theories/B64Dens4.v
theories/B64Dens5.v
theories/GammaBd.v
theories/B64CR3.v
theories/B64DensBad.v
theories/B64Thm2.v
theories/TypesConv.v
theories/MultiCap.v
theories/SpecAcc.v
theories/B64Acc.v
theories/RealAcc.v
theories/B64AccCdf.v
theories/B64AccCdf2.v
theories/B64AccCdf3.v
theories/B64AccW.v
theories/B64Thm3.v
theories/SpecTests.v
theories/B64Exec.v
theories/TestsPatch.v
theories/TestsSuite.v
theories/TestsThm.v
theories/QtMid.v
theories/SpecAccQ.v
theories/RealAccQ.v
theories/B64AccQ.v
theories/B64AccQ2.v
theories/B64AccQ3.v
theories/B64AccQ4.v
theories/B64AccQW.v
theories/B64Thm4.v
theories/SpecRandB.v
theories/B64Rand.v
theories/B64Rand2.v
theories/B64RandBad.v
theories/B64RandW.v
theories/B64RandMT.v
theories/B64Thm5.v
theories/B64Cdf4.v
theories/B64Cdf5.v
theories/B64CdfBad2.v
theories/B64Thm6.v
theories/SpecAccD.v
theories/B64AccLog.v
theories/B64AccDens.v
theories/B64AccDens2.v
theories/B64AccDens3.v
theories/B64AccDens4.v
theories/B64AccDens5.v
theories/B64AccDens6.v
theories/B64AccW4.v
theories/B64AccDBad.v
theories/B64Thm7.v
theories/SpecTrip.v
theories/RealTrip.v
theories/RealTrip2.v
theories/B64Trip.v
theories/B64Trip2.v
theories/B64Trip3.v
theories/B64TripLow.v
theories/B64TripBad.v
theories/B64AccPois.v
theories/B64AccDf.v
theories/RealTail.v
theories/B64AccT.v
theories/B64AccF.v
theories/B64AccIG.v
theories/B64AccBin.v
theories/SpecBin.v
theories/B64Thm8.v
theories/Support2.v
theories/SpecPois.v
theories/RealPois.v
theories/B64Pois.v
theories/B64Thm9.v
theories/B64Bin.v
theories/B64Thm10.v
theories/FInf.v
theories/B64AccQLow.v
theories/Props_C01.v
theories/Props_C02.v
theories/Props_C03.v
theories/Props_C04.v
theories/Props_C05.v
theories/Props_C06.v
theories/Props_C07.v
theories/Props_C08.v
theories/Props_C09.v
theories/Props_C10.v
theories/Props_C11.v
theories/Props_C12.v
theories/Props_C13.v
theories/Props_C14.v
theories/Props_C15.v
theories/Props_C16.v
theories/Props_C16b.v
theories/Props_C17.v
theories/Props_C18.v
theories/Props_C19.v
theories/Props_C20.v
theories/Props_C21.v
theories/Props_C22.v
theories/Props_C23.v
theories/Props_C24.v
theories/Props_C25.v
theories/Props_C26.v
theories/Props_C27.v
theories/Props_C28.v
theories/Props_C29.v
theories/Props_C30.v
theories/Props_C31.v
theories/Props_C32.v
theories/Props_C33.v
theories/Props_C34.v
theories/Props_C35.v
theories/Props_C36.v
theories/Props_C37.v
theories/Props_C38.v
theories/Props_C39.v
theories/Props_C40.v
theories/Props_C41.v
theories/Props_C42.v
theories/Props_C43.v
theories/Props_C44.v
theories/Props_C45.v
theories/Props_C46.v
theories/Props_C47.v
theories/Props_C48.v
theories/Props_C49.v
theories/Props_C50.v
theories/Props_C51.v
theories/Props_C52.v
theories/Props_C53.v
theories/Props_C54.v
theories/Props_C55.v
theories/Props_C56.v
theories/Props_C57.v
theories/Props_C58.v
theories/Props_C59.v
theories/Props_C60.v
theories/Props_C61.v
theories/Props_C62.v
theories/Props_C63.v
theories/Props_C64.v
theories/Props_C65.v
theories/Props_C66.v
theories/Props_C67.v
theories/Props_C68.v
theories/Props_C69.v
theories/Props_C70.v
