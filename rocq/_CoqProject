-Q theories Verif
theories/Base.v
theories/BaseP.v
theories/Digits.v
theories/DigitsP.v
theories/CombaP.v
theories/Params.v
theories/Fp.v
theories/Wf.v
theories/FpP.v
theories/PropArith.v
theories/Fermat.v
theories/Primality.v
theories/PrimeInst.v
theories/Fld.v
theories/FpRep.v
theories/FpMisc.v
theories/FpMiscP.v
theories/FpInst.v
theories/PropField.v
theories/KeccakSpec.v
theories/Keccak.v
theories/KeccakP.v
theories/SpongeP.v
theories/Out.v
theories/Poik.v
theories/Hashing.v
theories/HashSpec.v
theories/HashingP.v
theories/ParamP.v
theories/PropHash.v
theories/Codec.v
theories/CodecSpec.v
theories/CodecP.v
theories/ParseP.v
theories/LayoutP.v
theories/CodecThm.v
theories/CodecMore.v
theories/PropCodec.v
theories/Threads.v
theories/ThreadsP.v
theories/Env.v
theories/EnvP.v
theories/PropEnv.v
theories/Sage.v
theories/SageP.v
theories/PropSage.v
theories/Ops.v
theories/Ec.v
theories/Models.v
theories/Proto.v
theories/Sim.v
theories/ModelsSim.v
theories/ProtoSim.v
theories/WordOps.v
theories/FieldOps.v
theories/WordSim.v
theories/CurveSpec.v
theories/FldCurve.v
theories/SqrtP.v
theories/ModelSpec.v
theories/FldModels.v
theories/GroupP.v
theories/MultP.v
theories/IsogSpec.v
theories/FldIsog.v
theories/LadderP.v
theories/IsoP.v
theories/CurveP2.v
theories/WordCurve.v
theories/WordModels.v
theories/PropCurve.v
theories/Toy.v
theories/ZOps.v
theories/ProtoSpec.v
theories/VerifyP.v
theories/Cli.v
theories/CliP.v
theories/ToyRun.v
theories/PropProto.v
theories/OrderSpec.v
theories/OrderP.v
theories/CountP.v
theories/CheckP.v
theories/WordCheck.v
theories/PropCheck.v
theories/XSpec.v
theories/XLine.v
theories/XIso.v
theories/Strategy.v
theories/XChain.v
theories/XIsog.v
theories/WordIsog.v
theories/PropIsog.v
theories/WalkSpec.v
theories/WalkP.v
theories/ChainP.v
theories/OpenP.v
theories/WordWalk.v
theories/PropWalk.v
theories/Sidh.v
theories/Sike.v
theories/SikeP.v
theories/PropSike.v
theories/SquareP.v
theories/KumP.v
theories/GridP.v
theories/Lad3P.v
theories/BasisP.v
theories/SidhP.v
theories/SidhSim.v
theories/WordSidh.v
theories/Gens.v
theories/GensP.v
theories/GensInst.v
theories/PropSidh.v
theories/IsoStepP.v
theories/IsoChainP.v
theories/OddP.v
theories/RawP.v
theories/HonestChainP.v
theories/TapeP.v
theories/PackP.v
theories/HonestP.v
theories/HonestSpec.v
theories/WordHonest.v
theories/ToyHonest.v
theories/PropHonest.v
theories/Poly.v
theories/RatFun.v
theories/PolyEv.v
theories/Manin.v
theories/XSeq.v
theories/Hasse.v
theories/TorsP.v
theories/SupSpec.v
theories/ClassP.v
theories/WordMax.v
theories/WordVerify.v
theories/ToyMax.v
theories/PropMax.v
theories/SafeSpec.v
theories/SafeP.v
theories/WordSafe.v
theories/SafeProveP.v
theories/WordSafeProve.v
theories/PropSafe.v
theories/InitP.v
theories/WordInit.v
theories/PropInit.v
theories/Asm.v
theories/AsmP434.v
theories/AsmP.v
theories/AsmRedP.v
theories/AsmMul434.v
theories/AsmAdd434.v
theories/AsmFp434.v
theories/AsmSqr434.v
theories/AsmDblP.v
theories/AsmDbl434.v
theories/AsmRun434.v
theories/PropAsm.v
theories/X64.v
theories/X64P.v
theories/X64Q.v
theories/PropX64.v
theories/AsmP503.v
theories/AsmRed2.v
theories/AsmMul503.v
theories/AsmAdd503.v
theories/AsmFp503.v
theories/AsmSqr503.v
theories/AsmDblP2.v
theories/AsmDbl503.v
theories/AsmRun503.v
theories/PropAsm503.v
theories/X503.v
theories/X503P.v
theories/X503Q.v
theories/PropX503.v
theories/AsmP610.v
theories/AsmAdd610.v
theories/AsmM610.v
theories/AsmRed3.v
theories/AsmMul610.v
theories/AsmMulQ610.v
theories/AsmMulR610.v
theories/AsmFp610.v
theories/PropAsm610.v
