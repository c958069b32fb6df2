-Q theories Verif
theories/Lib/AbGroup.v
theories/Lib/Abel.v
theories/Lib/Fast63.v
theories/Lib/FastCurve.v
theories/Lib/Pocklington.v
theories/Lib/ZMod.v
theories/Model/Bitcoin.v
theories/Model/Boolean.v
theories/Model/Circuits.v
theories/Model/Curve.v
theories/Model/Dev.v
theories/Model/DevRecursive.v
theories/Model/Ecc.v
theories/Model/FieldInst.v
theories/Model/FieldLimbs.v
theories/Model/FieldTrait.v
theories/Model/Num.v
theories/Model/Opening.v
theories/Model/Paper.v
theories/Model/Params.v
theories/Model/Proofs.v
theories/Model/Recursion.v
theories/Model/RecursiveProof.v
theories/Model/Rescue.v
theories/Model/RescueGadget.v
theories/Model/Sha256.v
theories/Model/Synthesis.v
theories/Model/Threads.v
theories/Model/UInt.v
theories/Model/Util.v
theories/Spec/AcceptSpec.v
theories/Spec/AttackSpec.v
theories/Spec/BindingSpec.v
theories/Spec/BitcoinChainSpec.v
theories/Spec/BitcoinRunSpec.v
theories/Spec/BitcoinSpec.v
theories/Spec/BoolSpec.v
theories/Spec/ChainSpec.v
theories/Spec/CheatSpec.v
theories/Spec/CircuitSpec.v
theories/Spec/CountSpec.v
theories/Spec/CurveLaws.v
theories/Spec/CurveSpec.v
theories/Spec/DevSpec.v
theories/Spec/DriverSpec.v
theories/Spec/EccSpec.v
theories/Spec/ExprSpec.v
theories/Spec/ExtractSpec.v
theories/Spec/FieldLaws.v
theories/Spec/FieldSpec.v
theories/Spec/ForgerySpec.v
theories/Spec/LastStepSpec.v
theories/Spec/MachineSpec.v
theories/Spec/NumSpec.v
theories/Spec/ProofSpec.v
theories/Spec/RandomSpec.v
theories/Spec/RecursionSpec.v
theories/Spec/RecursiveCircuitSpec.v
theories/Spec/RescueSpec.v
theories/Spec/RunSpec.v
theories/Spec/Sha256Spec.v
theories/Spec/SizeSpec.v
theories/Spec/SoundnessSpec.v
theories/Spec/SystemSpec.v
theories/Spec/UIntSpec.v
theories/Spec/UniformSpec.v
theories/Spec/UtilSpec.v
theories/Spec/VerifySpec.v
theories/Proofs/AcceptP.v
theories/Proofs/AlikeBitcoinP.v
theories/Proofs/AlikeEccP.v
theories/Proofs/AlikeGadgetsP.v
theories/Proofs/AlikeLayoutP.v
theories/Proofs/AlikeP.v
theories/Proofs/AlikeRecursionP.v
theories/Proofs/AlikeShaP.v
theories/Proofs/AlwaysP.v
theories/Proofs/AttackP.v
theories/Proofs/BatchInvertP.v
theories/Proofs/BindingP.v
theories/Proofs/BitcoinExactP.v
theories/Proofs/BitcoinForgeP.v
theories/Proofs/BitcoinHonestP.v
theories/Proofs/BitcoinP.v
theories/Proofs/BoolP.v
theories/Proofs/ChainP.v
theories/Proofs/ChallengeP.v
theories/Proofs/CheatStepP.v
theories/Proofs/CircuitP.v
theories/Proofs/CostBitcoinP.v
theories/Proofs/CostEccP.v
theories/Proofs/CostP.v
theories/Proofs/CostRecursionP.v
theories/Proofs/CountLayoutP.v
theories/Proofs/CountP.v
theories/Proofs/CurveCodeP.v
theories/Proofs/CurveInst.v
theories/Proofs/CurveOrderP.v
theories/Proofs/CurveP.v
theories/Proofs/CurveTop.v
theories/Proofs/DeferredP.v
theories/Proofs/DeferredTop.v
theories/Proofs/DeterminismP.v
theories/Proofs/DevP.v
theories/Proofs/DevRecursiveP.v
theories/Proofs/DriverP.v
theories/Proofs/DriverTop.v
theories/Proofs/EccAddP.v
theories/Proofs/EccMulP.v
theories/Proofs/EccP.v
theories/Proofs/EccRefP.v
theories/Proofs/EccTop.v
theories/Proofs/EncodeP.v
theories/Proofs/ExampleP.v
theories/Proofs/ExprP.v
theories/Proofs/ExtractHonestP.v
theories/Proofs/ExtractP.v
theories/Proofs/FakeP.v
theories/Proofs/FftP.v
theories/Proofs/FieldGen.v
theories/Proofs/FieldInstP.v
theories/Proofs/FieldLimbsP.v
theories/Proofs/FieldRepP.v
theories/Proofs/FieldTop.v
theories/Proofs/FoldP.v
theories/Proofs/ForgeryP.v
theories/Proofs/FpFq.v
theories/Proofs/HonP.v
theories/Proofs/HonestP.v
theories/Proofs/IdentityP.v
theories/Proofs/IdentityTop.v
theories/Proofs/IsSatP.v
theories/Proofs/IsSatProgressP.v
theories/Proofs/LastStepP.v
theories/Proofs/LcP.v
theories/Proofs/MachineP.v
theories/Proofs/ModeP.v
theories/Proofs/MultiexpP.v
theories/Proofs/NamespaceP.v
theories/Proofs/NumP.v
theories/Proofs/OpeningP.v
theories/Proofs/OpeningTop.v
theories/Proofs/ParFftP.v
theories/Proofs/ParamsP.v
theories/Proofs/ParamsTop.v
theories/Proofs/PolyMulP.v
theories/Proofs/PowerGensP.v
theories/Proofs/Primes.v
theories/Proofs/ProverLemmas.v
theories/Proofs/ProverP.v
theories/Proofs/ProverTop.v
theories/Proofs/RecursionDeferredP.v
theories/Proofs/RecursionGlue.v
theories/Proofs/RecursionP.v
theories/Proofs/RecursionTop.v
theories/Proofs/RecursiveSystemP.v
theories/Proofs/RescueGadgetP.v
theories/Proofs/RescueP.v
theories/Proofs/SamePointsP.v
theories/Proofs/Sha256P.v
theories/Proofs/SliceP.v
theories/Proofs/SoundAlgebraP.v
theories/Proofs/SoundHonestP.v
theories/Proofs/SoundLinearP.v
theories/Proofs/SoundP.v
theories/Proofs/SoundTopP.v
theories/Proofs/SpongeP.v
theories/Proofs/SqrtP.v
theories/Proofs/SumP.v
theories/Proofs/SystemP.v
theories/Proofs/ThreadsP.v
theories/Proofs/TidyP.v
theories/Proofs/TranscriptGadgetP.v
theories/Proofs/UIntArithP.v
theories/Proofs/UIntP.v
theories/Proofs/UnpackP.v
theories/Proofs/UtilTop.v
theories/Proofs/VerifierChecksP.v
theories/Proofs/VerifierCircuitP.v
theories/Proofs/VerifierGadgetP.v
theories/Proofs/VerifierRoundsP.v
theories/Proofs/VerifierStepP.v
theories/Proofs/VerifierTopP.v
theories/Proofs/VerifyP.v
theories/Proofs/VerifyTop.v
theories/Proofs/WideGensP.v
theories/Proofs/WordP.v
theories/Proofs/ZtoF.v
theories/Properties/AcceptProps.v
theories/Properties/BindingProps.v
theories/Properties/BitcoinAttackProps.v
theories/Properties/BitcoinExactProps.v
theories/Properties/BitcoinForgeProps.v
theories/Properties/BitcoinMainProps.v
theories/Properties/BitcoinProps.v
theories/Properties/BoolProps.v
theories/Properties/ChainProps.v
theories/Properties/CheatProps.v
theories/Properties/CountProps.v
theories/Properties/CurveProps.v
theories/Properties/DevRecursiveProps.v
theories/Properties/DriverProps.v
theories/Properties/EccProps.v
theories/Properties/ExtractProps.v
theories/Properties/FieldProps.v
theories/Properties/ForgeryProps.v
theories/Properties/IdentityProps.v
theories/Properties/LastStepProps.v
theories/Properties/MachineProps.v
theories/Properties/NumProps.v
theories/Properties/OpeningProps.v
theories/Properties/PaperProps.v
theories/Properties/ParamsProps.v
theories/Properties/ProverProps.v
theories/Properties/RecursionProps.v
theories/Properties/RecursiveCircuitProps.v
theories/Properties/RecursiveSystemProps.v
theories/Properties/RescueProps.v
theories/Properties/SizeProps.v
theories/Properties/SoundnessProps.v
theories/Properties/UIntProps.v
theories/Properties/UtilProps.v
theories/Properties/VerifyProps.v
