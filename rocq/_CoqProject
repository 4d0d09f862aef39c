-Q theories Verif
theories/Model/Api.v
theories/Model/Base.v
theories/Model/Distr.v
theories/Model/ExpoNormal.v
theories/Model/ExpoTable.v
theories/Model/Float.v
theories/Model/Fused.v
theories/Model/GenRead.v
theories/Model/Lfg.v
theories/Model/LfgTable.v
theories/Model/Mt64.v
theories/Model/NormalTable.v
theories/Model/Rng.v
theories/Model/Shared.v
theories/Model/Utf8.v
theories/Model/Util.v
theories/Model/Xoroshiro.v
theories/Model/Xoshiro.v
theories/Model/Yield.v
theories/Model/ZigScript.v
theories/Model/Ziggurat.v
theories/Proofs/BlockProofs.v
theories/Proofs/ByteTape.v
theories/Proofs/CostProofs.v
theories/Proofs/Count.v
theories/Proofs/DensityProofs.v
theories/Proofs/DensityTables.v
theories/Proofs/ExpBounds.v
theories/Proofs/ExpoLaw.v
theories/Proofs/FloatProofs.v
theories/Proofs/FrequencyProofs.v
theories/Proofs/FusedProofs.v
theories/Proofs/Gauss.v
theories/Proofs/GenLaw.v
theories/Proofs/GenReturns.v
theories/Proofs/GenTape.v
theories/Proofs/Gf2.v
theories/Proofs/Gf2Order.v
theories/Proofs/Gf2Seq.v
theories/Proofs/Independent.v
theories/Proofs/IvWords.v
theories/Proofs/KindProofs.v
theories/Proofs/LfgBlocks.v
theories/Proofs/LfgFast.v
theories/Proofs/LfgHigh.v
theories/Proofs/LfgJump.v
theories/Proofs/LfgKill.v
theories/Proofs/LfgLow.v
theories/Proofs/LfgPeriod.v
theories/Proofs/LfgPeriodCert.v
theories/Proofs/LfgPow4.v
theories/Proofs/LfgPower.v
theories/Proofs/LfgPrimes.v
theories/Proofs/LfgProofs.v
theories/Proofs/LfgSave.v
theories/Proofs/LfgStream.v
theories/Proofs/MeanProofs.v
theories/Proofs/Mills.v
theories/Proofs/MtProofs.v
theories/Proofs/MtSeed.v
theories/Proofs/MtSeedIV.v
theories/Proofs/NormalInst.v
theories/Proofs/NormalLaw.v
theories/Proofs/NormalTail.v
theories/Proofs/NormalTailLaw.v
theories/Proofs/OrbitCount.v
theories/Proofs/PermCount.v
theories/Proofs/PolyCert.v
theories/Proofs/PortableProofs.v
theories/Proofs/Primes.v
theories/Proofs/Printing.v
theories/Proofs/PureGen.v
theories/Proofs/ReadProgs.v
theories/Proofs/ReadProofs.v
theories/Proofs/RelError.v
theories/Proofs/Riemann.v
theories/Proofs/SaveProofs.v
theories/Proofs/SharedProofs.v
theories/Proofs/SplitMix.v
theories/Proofs/SumN.v
theories/Proofs/UintnLaw.v
theories/Proofs/UniformSeqProofs.v
theories/Proofs/Utf8Proofs.v
theories/Proofs/VarianceProofs.v
theories/Proofs/WordLemmas.v
theories/Proofs/XoroProofs.v
theories/Proofs/XoroSeed.v
theories/Proofs/XoshiProofs.v
theories/Proofs/XoshiSeed.v
theories/Proofs/YieldProofs.v
theories/Proofs/ZigAccept.v
theories/Proofs/ZigAnswer.v
theories/Proofs/ZigBody.v
theories/Proofs/ZigFloat.v
theories/Proofs/ZigGeneral.v
theories/Proofs/ZigHit.v
theories/Proofs/ZigInst.v
theories/Proofs/ZigLayer.v
theories/Proofs/ZigMirror.v
theories/Proofs/ZigNear.v
theories/Proofs/ZigSearch.v
theories/Proofs/ZigSolve.v
theories/Proofs/ZigStep.v
theories/Proofs/ZigTables.v
theories/Proofs/ZigTape.v
theories/Proofs/ZigUse.v
theories/Props/Adapt.v
theories/Props/BigLaw.v
theories/Props/Blocks.v
theories/Props/Compose.v
theories/Props/Cost.v
theories/Props/Density.v
theories/Props/Draws.v
theories/Props/Equidist.v
theories/Props/ExpoLaw.v
theories/Props/ExpoNormal.v
theories/Props/Frequency.v
theories/Props/Gens.v
theories/Props/Independence.v
theories/Props/Lfg.v
theories/Props/LfgBits.v
theories/Props/LfgMore.v
theories/Props/LfgPeriod.v
theories/Props/LfgRandom.v
theories/Props/LfgSeedTable.v
theories/Props/LowBit.v
theories/Props/Mean.v
theories/Props/MeanUintn.v
theories/Props/MeanUniform.v
theories/Props/Mixing.v
theories/Props/Mt.v
theories/Props/MtMore.v
theories/Props/NormalLaw.v
theories/Props/Periods.v
theories/Props/Portable.v
theories/Props/RandomState.v
theories/Props/Reference.v
theories/Props/Reproduce.v
theories/Props/Rng.v
theories/Props/RngBig.v
theories/Props/Seeding.v
theories/Props/Sharing.v
theories/Props/Shuffle.v
theories/Props/Streams.v
theories/Props/Strings.v
theories/Props/Tails.v
theories/Props/Uniform.v
theories/Props/UniformLaw.v
theories/Props/UniformSeq.v
theories/Props/Variance.v
theories/Props/VarianceUintn.v
theories/Props/Yield.v
theories/Props/Zig.v
theories/Props/ZigExact.v
theories/Props/ZigLaw.v
theories/Props/ZigScript.v
theories/Props/ZigShipped.v
theories/Props/ZigUse.v
theories/Spec/Blocks.v
theories/Spec/Bytes.v
theories/Spec/Common.v
theories/Spec/Cost.v
theories/Spec/Counting.v
theories/Spec/Density.v
theories/Spec/Floats.v
theories/Spec/Frequency.v
theories/Spec/Kinds.v
theories/Spec/LfgBits.v
theories/Spec/LfgPeriod.v
theories/Spec/LfgRandom.v
theories/Spec/LfgRef.v
theories/Spec/Lfsr.v
theories/Spec/Literals.v
theories/Spec/Mean.v
theories/Spec/Mixing.v
theories/Spec/MtRef.v
theories/Spec/MtSeedRef.v
theories/Spec/Portable.v
theories/Spec/Prob.v
theories/Spec/RandomState.v
theories/Spec/ReadProg.v
theories/Spec/RefGens.v
theories/Spec/Seeding.v
theories/Spec/Sharing.v
theories/Spec/Shuffling.v
theories/Spec/States.v
theories/Spec/Tails.v
theories/Spec/UniformDist.v
theories/Spec/UniformSeq.v
theories/Spec/Words.v
theories/Spec/Yielding.v
theories/Spec/Zig.v
theories/Spec/ZigBuild.v
theories/Spec/ZigFit.v
theories/Spec/ZigUse.v
