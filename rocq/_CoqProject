-Q theories Verif
theories/RingTac.v
theories/UintModel.v
theories/Spec.v
theories/BigpolyModel.v
theories/BitrevProofs.v
theories/NttProofs.v
theories/NttCore.v
theories/UintProofs.v
theories/NttTables.v
theories/UintFp.v
theories/PolyProofs.v
theories/VecModel.v
theories/VecProofs.v
theories/RingProofs.v
theories/Prop_Bigpoly.v
theories/NormModel.v
theories/NormProofs.v
theories/BucklerModel.v
theories/ProtocolModel.v
theories/DefineModel.v
theories/BucklerSpec.v
theories/FillProofs.v
theories/NormSound.v
theories/ContextProofs.v
theories/CheckerModel.v
theories/CheckerProofs.v
theories/NormComplete.v
theories/FillComplete.v
theories/Prop_Checker.v
theories/Prop_Norm.v
theories/EncodeProofs.v
theories/CheckProofs.v
theories/RangeProofs.v
theories/CheckSound.v
theories/Prop_Check.v
theories/WalkModel.v
theories/Prop_Walk.v
theories/ProtocolProofs.v
theories/Prop_Protocol.v
theories/JindoIntModel.v
theories/JindoIntProofs.v
theories/Prop_JindoInt.v
theories/CycModel.v
theories/JindoModel.v
theories/JindoProofs.v
theories/Prop_JindoEnc.v
theories/LayoutProofs.v
theories/JindoComplete.v
theories/JindoHonest.v
theories/Prop_JindoCommit.v
theories/Prop_JindoSound.v
theories/Prop_Forge.v
theories/Prop_JindoBuckler.v
theories/CsprngModel.v
theories/CsprngProofs.v
theories/FloatProofs.v
theories/KeyProofs.v
theories/Prop_Csprng.v
theories/ParamsModel.v
theories/Prop_Params.v
theories/ZpModel.v
theories/ZpConst.v
theories/ZpProofs.v
theories/ZpField.v
theories/ZpConv.v
theories/ZpInv.v
theories/ZpGcd.v
theories/ZpTerm.v
theories/ZpUnrolled2.v
theories/ZpUnrolled4.v
theories/ZpUnrolled7.v
theories/ZpUnrolled14.v
theories/ZpUnrolledMult.v
theories/ZpUnrolledTac.v
theories/Prop_Zp.v
theories/PockProofs.v
theories/PrimeCheck.v
theories/PrimeCert.v
theories/Prop_Prime.v
theories/ConcModel.v
theories/Prop_Conc.v
theories/Prop_Transcript.v
theories/ExampleModel.v
theories/ExampleProofs.v
theories/Prop_Examples.v
theories/Prop_JindoFs.v
theories/Prop_BfvNoise.v
theories/GaussModel.v
theories/Prop_Gauss.v
theories/ZkProofs.v
theories/Prop_Zk.v
theories/VectorModel.v
theories/VectorProofs.v
theories/Prop_Vector.v
theories/ElemModel.v
theories/Prop_Elem.v
theories/Prop_Sqrt.v
theories/ZpText2.v
theories/ZpText4.v
theories/ZpText7.v
theories/ZpText14.v
theories/ZpTextMult.v
theories/Prop_Unrolled.v
theories/AsmModel.v
theories/AsmText2.v
theories/AsmText4.v
theories/AsmText7.v
theories/ArmText2.v
theories/ArmText4.v
theories/AsmEntry.v
theories/AsmProofs.v
theories/AsmProof2.v
theories/AsmProof4.v
theories/AsmProof7.v
theories/ArmProof2.v
theories/ArmProof4.v
theories/Prop_Asm.v
theories/AvxModel.v
theories/AvxText.v
theories/AvxEntry.v
theories/AvxProofs.v
theories/AvxSum.v
theories/AvxDot.v
theories/AvxInner.v
theories/Prop_Avx.v
theories/ApiModel.v
theories/Prop_Api.v
theories/EvalModel.v
theories/Prop_Eval.v
theories/Prop_Bounds.v
theories/Prop_EvalAut.v
theories/Prop_Order.v
