-Q theories Verif
theories/Base.v
theories/Spec.v
theories/Tools.v
theories/ToolsProofs.v
theories/MatProofs.v
theories/PermProofs.v
theories/IntProofs.v
theories/ToolsProofs2.v
theories/Properties_Tools.v
theories/CS.v
theories/CSProofs.v
theories/POVProofs.v
theories/CSExtra.v
theories/Properties_CS.v
theories/ProgSpec.v
theories/Circuit.v
theories/CircuitProofs.v
theories/Build.v
theories/CircuitPOV.v
theories/CircuitTop.v
theories/R1CSCirc.v
theories/R1CSCircProofs.v
theories/R1CSCircTop.v
theories/R1CSPov.v
theories/Properties_Circuit.v
theories/KZG.v
theories/KZGSpec.v
theories/KZGProofs.v
theories/Properties_KZG.v
theories/Snark.v
theories/Laurent.v
theories/SnarkProofs.v
theories/SnarkPerm.v
theories/PovPE.v
theories/PovPEProofs.v
theories/PovPEConst.v
theories/PovPEGood.v
theories/PovPEComplete.v
theories/PovPETop.v
theories/Fib.v
theories/FibProofs.v
theories/FibValue.v
theories/SnarkSpec.v
theories/FibTop.v
theories/Properties_Snark.v
theories/Properties_Fib.v
theories/Pov.v
theories/PovProofs.v
theories/PovConst.v
theories/PovGood.v
theories/PovComplete.v
theories/PovTop.v
theories/Properties_Pov.v
theories/SoundSpec.v
theories/Sound.v
theories/KZGSound.v
theories/PovSoundSpec.v
theories/PovSound.v
theories/Properties_Sound.v
theories/PovPESoundSpec.v
theories/PovPEAttack.v
theories/PovPEGen.v
theories/PovPESound.v
theories/Properties_PESound.v
theories/Transcript.v
theories/TranscriptProofs.v
theories/TranscriptSpec.v
theories/Properties_FS.v
theories/Laurent2.v
theories/R1.v
theories/R1Proofs.v
theories/R1Const.v
theories/SparseSum.v
theories/R1Good.v
theories/R1Complete.v
theories/R1Top.v
theories/Properties_R1.v
theories/PartFrac.v
theories/R1SoundSpec.v
theories/R1Sound.v
theories/Properties_R1Sound.v
theories/RP.v
theories/RPProofs.v
theories/RPConst.v
theories/RPGood.v
theories/RPComplete.v
theories/RPTop.v
theories/Properties_RP.v
theories/RPSoundSpec.v
theories/RPSound.v
theories/Properties_RPSound.v
theories/Properties_FS2.v
theories/RC.v
theories/RCProofs.v
theories/RCSoundSpec.v
theories/RCSound.v
theories/RCComplete.v
theories/Properties_RC.v
theories/Properties_RCSound.v
theories/HP.v
theories/HPProofs.v
theories/HPConst.v
theories/HPGood.v
theories/HPComplete.v
theories/HPTop.v
theories/Properties_HP.v
theories/HPSoundSpec.v
theories/HPSound.v
theories/HPStrategy.v
theories/Properties_HPSound.v
theories/LeakSpec.v
theories/Leak.v
theories/LeakProt.v
theories/Properties_Leak.v
theories/Plonk.v
theories/PlonkSpec.v
theories/PlonkProofs.v
theories/PlonkGadgets.v
theories/PlonkSelect.v
theories/PlonkRange.v
theories/PlonkRows.v
theories/PlonkLogic.v
theories/PlonkLogicOk.v
theories/PlonkPoint.v
theories/PlonkFixed.v
theories/PlonkVarBase.v
theories/PlonkEcc.v
theories/PlonkBuilt.v
theories/Properties_Plonk.v
theories/PlonkWires.v
theories/PlonkWires2.v
theories/PlonkPI.v
theories/PlonkSigmaSpec.v
theories/PlonkPIProofs.v
theories/PlonkSigma.v
theories/PlonkCopy.v
theories/Properties_PlonkWires.v
theories/PlonkProver.v
theories/ProdPoly.v
theories/PlonkGPSpec.v
theories/PlonkGP.v
theories/Properties_PlonkPerm.v
theories/PlonkGatesSpec.v
theories/PlonkGates.v
theories/PlonkSels.v
theories/Properties_PlonkGates.v
theories/PlonkLookupSpec.v
theories/PlonkLookup.v
theories/PlonkLookup2.v
theories/PlonkLookup3.v
theories/PlonkLookup4.v
theories/Properties_PlonkLookup.v
theories/PlonkQuot.v
theories/PolyDom.v
theories/PlonkQuotSpec.v
theories/PlonkQuotProofs.v
theories/PlonkQuot2.v
theories/PlonkQuot3.v
theories/PlonkQuot4.v
theories/Properties_PlonkQuot.v
theories/PlonkVerify.v
theories/PlonkVerifySpec.v
theories/PlonkVerifyProofs.v
theories/PlonkVerify2.v
theories/Properties_PlonkVerify.v
theories/PlonkTranscript.v
theories/PlonkTranscriptSpec.v
theories/PlonkTranscriptProofs.v
theories/Properties_PlonkTranscript.v
theories/Properties_FS3.v
theories/Poseidon.v
theories/PoseidonSpec.v
theories/PoseidonProofs.v
theories/PoseidonPlonk.v
theories/PoseidonZZ.v
theories/Properties_Poseidon.v
theories/PMatrix.v
theories/PMatrixSpec.v
theories/PMatrixProofs.v
theories/PMatrixMds.v
theories/PMatrixCauchy.v
theories/Properties_PMatrix.v
theories/PCompress.v
theories/POptSpec.v
theories/PSparse.v
theories/PCompressProofs.v
theories/Properties_PCompress.v
theories/Grain.v
theories/GrainSpec.v
theories/GrainProofs.v
theories/Properties_Grain.v
theories/PRounds.v
theories/Properties_PRounds.v
theories/PlonkTable.v
theories/PlonkTableSpec.v
theories/Properties_PlonkTable.v
theories/Examples.v
theories/ExamplesProofs.v
theories/Properties_Examples.v
