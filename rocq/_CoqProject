-Q theories Verif
theories/Base.v
theories/Field.v
theories/Primes.v
theories/Plonk.v
theories/PlonkFacts.v
theories/FieldOpsModel.v
theories/FieldOpsProofs.v
theories/FlagsProofs.v
theories/Bits.v
theories/RangeModel.v
theories/RangeProofs.v
theories/BitModel.v
theories/BitProofs.v
theories/CompareModel.v
theories/CompareProofs.v
theories/CheckedProofs.v
theories/CmpFlagProofs.v
theories/Examples.v
theories/ZkevmModel.v
theories/ZkevmSel.v
theories/ZkevmArith.v
theories/ZkevmOps.v
theories/ZkevmProofs.v
theories/ZkevmRun.v
theories/LogicModel.v
theories/LogicProofs.v
theories/PowerModel.v
theories/PowerProofs.v
theories/Euler.v
theories/SqrtProofs.v
theories/FlexModel.v
theories/FlexProofs.v
theories/FlexPow.v
theories/FlexFactor.v
theories/PoseidonModel.v
theories/PoseidonProofs.v
theories/NonNativeModel.v
theories/NonNativeProofs.v
theories/NonNativeArith.v
theories/NonNativeComp.v
theories/NonNativeWit.v
theories/NonNativeMul.v
theories/FriModel.v
theories/FriProofs.v
theories/FriSeq.v
theories/FriCosets.v
theories/FriSound.v
theories/FriComplete.v
theories/AssignModel.v
theories/AssignProofs.v
theories/BuilderModel.v
theories/BuilderProofs.v
theories/FinalizeModel.v
theories/FinalizeProofs.v
theories/BatchModel.v
theories/BatchProofs.v
theories/BatchQueue.v
theories/PackModel.v
theories/PackProofs.v
theories/ManifestModel.v
theories/ManifestProofs.v
theories/PvModel.v
theories/PvSpec.v
theories/PvTape.v
theories/PvGate.v
theories/PvLoops.v
theories/PvF1.v
theories/PvF3.v
theories/PvPerm.v
theories/PvStage.v
theories/PvLookup.v
theories/PvLookupMain.v
theories/EvalModel.v
theories/EvalProofs.v
theories/EvalPoly.v
theories/Props_Core.v
theories/Props_FieldOps.v
theories/Props_Bits.v
theories/Props_Compare.v
theories/Props_Zkevm.v
theories/Props_Logic.v
theories/Props_Power.v
theories/Props_Pack.v
theories/Props_Manifest.v
theories/Props_Finalize.v
theories/Props_Batch.v
theories/Props_Flex.v
theories/Props_NonNative.v
theories/Props_Fri.v
theories/Props_Pv.v
theories/Props_Lookup.v
theories/Props_Eval.v
theories/CurveModel.v
theories/CurveSpec.v
theories/CurveProofs.v
theories/EndoProofs.v
theories/Pasta.v
theories/Props_Curve.v
theories/VbsmModel.v
theories/VbsmSpec.v
theories/VbsmProofs.v
theories/VbsmTrace.v
theories/VbsmHonest.v
theories/VbsmMain.v
theories/VbsmRefute.v
theories/VbsmExample.v
theories/Props_Vbsm.v
theories/Sha256Spec.v
theories/Sha256Model.v
theories/Sha256Sparse.v
theories/Sha256Words.v
theories/Sha256Gadgets.v
theories/Sha256Blocks.v
theories/Sha256View.v
theories/Sha256Sound.v
theories/Sha256Honest.v
theories/Sha256Complete.v
theories/Props_Sha256.v
theories/Sha256HashSpec.v
theories/Sha256HashModel.v
theories/Sha256Dec.v
theories/Sha256HashProofs.v
theories/Props_Sha256Hash.v
theories/BytecodeSpec.v
theories/BytecodeModel.v
theories/BytecodeProofs.v
theories/BytecodeRows.v
theories/Props_Bytecode.v
theories/Ed25519.v
theories/EdModel.v
theories/EdStage.v
theories/EdProofs.v
theories/EdPoint.v
theories/EdFree.v
theories/Props_Ed.v
theories/EdMul.v
theories/Props_EdMul.v
theories/EdScalarModel.v
theories/EdScalar.v
theories/Props_EdScalar.v
theories/ProxyModel.v
theories/ProxyProofs.v
theories/Props_Proxy.v
theories/ConnectModel.v
theories/ConnectProofs.v
theories/Props_Connect.v
theories/StretchModel.v
theories/StretchProofs.v
theories/Props_Stretch.v
theories/Sha512Spec.v
theories/Sha512Model.v
theories/Sha512Words.v
theories/Sha512Complete.v
theories/Props_Sha512.v
theories/ColinearProofs.v
theories/VerifierModel.v
theories/VerifierSpec.v
theories/VerifierSteps.v
theories/VerifierWalk.v
theories/VerifierProofs.v
theories/Props_Verifier.v
theories/ProofLayoutModel.v
theories/ProofLayoutProofs.v
theories/Props_ProofLayout.v
theories/Props_VerifierAssign.v
theories/Sha512HashModel.v
theories/Sha512HashWords.v
theories/Sha512HashProofs.v
theories/Props_Sha512Hash.v
theories/LimbsModel.v
theories/LimbsProofs.v
theories/Props_Limbs.v
theories/MockModel.v
theories/Props_Mock.v
theories/LoaderModel.v
theories/Props_Loader.v
theories/ShaTableModel.v
theories/Props_ShaTable.v
