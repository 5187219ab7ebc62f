-Q theories Verif
theories/Model/Aes.v
theories/Model/BabyBear.v
theories/Model/Barrett.v
theories/Model/Base.v
theories/Model/BlindRotation.v
theories/Model/Block.v
theories/Model/Boolean.v
theories/Model/Cache.v
theories/Model/Concrete.v
theories/Model/Count.v
theories/Model/CountRelaxed.v
theories/Model/DecomposeAt.v
theories/Model/Derive.v
theories/Model/Example.v
theories/Model/Field.v
theories/Model/FieldText.v
theories/Model/Gadget.v
theories/Model/Gaussian.v
theories/Model/Gcd.v
theories/Model/Goldilocks.v
theories/Model/KeySwitch.v
theories/Model/Lwe.v
theories/Model/ModSwitch.v
theories/Model/NTT.v
theories/Model/OptArith.v
theories/Model/OptRing.v
theories/Model/OptScheme.v
theories/Model/Params.v
theories/Model/Plaintext.v
theories/Model/Poly.v
theories/Model/PowOf2.v
theories/Model/Prg.v
theories/Model/Prime.v
theories/Model/Reduce.v
theories/Model/Release.v
theories/Model/RingTests.v
theories/Model/Rlwe.v
theories/Model/Sample.v
theories/Model/Sampled.v
theories/Model/SecretKey.v
theories/Model/Seeded.v
theories/Model/Shipped.v
theories/Model/Shoup.v
theories/Model/Stream.v
theories/Model/Tally.v
theories/Model/Threads.v
theories/Model/UnitTests.v
theories/Proofs/AesEncrypt.v
theories/Proofs/AesProofs.v
theories/Proofs/AliveProofs.v
theories/Proofs/Arith.v
theories/Proofs/BabyBearProofs.v
theories/Proofs/BackendProofs.v
theories/Proofs/BarrettProofs.v
theories/Proofs/BinomProofs.v
theories/Proofs/BlindKeyProofs.v
theories/Proofs/BlindProofs.v
theories/Proofs/BlockProofs.v
theories/Proofs/BootExactBinProofs.v
theories/Proofs/BootExactProofs.v
theories/Proofs/BootLweBinProofs.v
theories/Proofs/BootLweProofs.v
theories/Proofs/BootTailBinProofs.v
theories/Proofs/BootTailProofs.v
theories/Proofs/CacheProofs.v
theories/Proofs/CipherProofs.v
theories/Proofs/ConcreteProofs.v
theories/Proofs/CountProofs.v
theories/Proofs/DeadProofs.v
theories/Proofs/DecomposeAtProofs.v
theories/Proofs/DeriveProofs.v
theories/Proofs/ExampleTac.v
theories/Proofs/ExamplesProofs.v
theories/Proofs/FieldProofs.v
theories/Proofs/FieldTextProofs.v
theories/Proofs/FloatProofs.v
theories/Proofs/FloatSubProofs.v
theories/Proofs/GadgetMain.v
theories/Proofs/GadgetProofs.v
theories/Proofs/GateChanceBinProofs.v
theories/Proofs/GateChanceProofs.v
theories/Proofs/GateFormProofs.v
theories/Proofs/GateProofs.v
theories/Proofs/GaussProofs.v
theories/Proofs/GcdMore.v
theories/Proofs/GcdProofs.v
theories/Proofs/GcdWide.v
theories/Proofs/GoldilocksProofs.v
theories/Proofs/HidingProofs.v
theories/Proofs/InterpProofs.v
theories/Proofs/KeyGenProofs.v
theories/Proofs/KeyHidingProofs.v
theories/Proofs/KeyWeightProofs.v
theories/Proofs/LastStepBinProofs.v
theories/Proofs/LastStepProofs.v
theories/Proofs/LatticeTestGadget.v
theories/Proofs/LatticeTestProofs.v
theories/Proofs/LayerProofs.v
theories/Proofs/LiarProofs.v
theories/Proofs/LimbProofs.v
theories/Proofs/LinProgProofs.v
theories/Proofs/LinearProofs.v
theories/Proofs/LutProofs.v
theories/Proofs/LweChanceBinProofs.v
theories/Proofs/LweChanceProofs.v
theories/Proofs/LweProofs.v
theories/Proofs/LweSwitchProofs.v
theories/Proofs/MachineMain.v
theories/Proofs/MachineProofs.v
theories/Proofs/ModSwitchProofs.v
theories/Proofs/MomentProofs.v
theories/Proofs/MonomialMore.v
theories/Proofs/MonomialProofs.v
theories/Proofs/NTTProofs.v
theories/Proofs/NTTTableProofs.v
theories/Proofs/NoiseProofs.v
theories/Proofs/NumTheory.v
theories/Proofs/OptArithProofs.v
theories/Proofs/OptBases.v
theories/Proofs/OptExtra.v
theories/Proofs/OptGcd.v
theories/Proofs/OptMain.v
theories/Proofs/OptRingProofs.v
theories/Proofs/OptSchemeProofs.v
theories/Proofs/ParamsProofs.v
theories/Proofs/PlantProofs.v
theories/Proofs/PolyInvProofs.v
theories/Proofs/PolyMain.v
theories/Proofs/PolyMath.v
theories/Proofs/PolyProofs.v
theories/Proofs/PotProofs.v
theories/Proofs/PowOf2Proofs.v
theories/Proofs/PrgProofs.v
theories/Proofs/PrimeChanceProofs.v
theories/Proofs/PrimeProofs.v
theories/Proofs/RandomProofs.v
theories/Proofs/ReduceProofs.v
theories/Proofs/Refine.v
theories/Proofs/Reify.v
theories/Proofs/RelaxedProofs.v
theories/Proofs/RelaxedTrace.v
theories/Proofs/ReleaseProofs.v
theories/Proofs/RgswChainProofs.v
theories/Proofs/RgswProofs.v
theories/Proofs/RingProgProofs.v
theories/Proofs/RingProofs.v
theories/Proofs/RingSwitchKeyProofs.v
theories/Proofs/RingSwitchProofs.v
theories/Proofs/RingTestProofs.v
theories/Proofs/RksNoiseProofs.v
theories/Proofs/RlweProofs.v
theories/Proofs/RootChanceProofs.v
theories/Proofs/RotBinProofs.v
theories/Proofs/RotProofs.v
theories/Proofs/SampleProofs.v
theories/Proofs/SampledProofs.v
theories/Proofs/ShippedChanceProofs.v
theories/Proofs/ShoupProofs.v
theories/Proofs/Shuffle.v
theories/Proofs/SizeProofs.v
theories/Proofs/SlotProofs.v
theories/Proofs/StreamKeys.v
theories/Proofs/StreamMain.v
theories/Proofs/StreamProofs.v
theories/Proofs/StreamSource.v
theories/Proofs/SubGaussProofs.v
theories/Proofs/TallyProofs.v
theories/Proofs/ThreadProofs.v
theories/Proofs/TopProofs.v
theories/Proofs/UniformProofs.v
theories/Proofs/UnitTestFields.v
theories/Proofs/UnitTestPrime.v
theories/Proofs/UnitTestProofs.v
theories/Proofs/WholeRunProofs.v
theories/Proofs/WorkspaceProofs.v
theories/Props/C01.v
theories/Props/C02.v
theories/Props/C03.v
theories/Props/C04.v
theories/Props/C05.v
theories/Props/C06.v
theories/Props/C07.v
theories/Props/C08.v
theories/Props/C09.v
theories/Props/C10.v
theories/Props/C11.v
theories/Props/C12.v
theories/Props/C13.v
theories/Props/C14.v
theories/Props/C15.v
theories/Props/C16.v
theories/Props/C17.v
theories/Props/C18.v
theories/Props/C19.v
theories/Props/C20.v
theories/Props/C21.v
theories/Props/C22.v
theories/Props/C23.v
theories/Props/C24.v
theories/Props/C25.v
theories/Props/C26.v
theories/Props/C27.v
theories/Props/C28.v
theories/Props/C29.v
theories/Props/C30.v
theories/Props/C31.v
theories/Props/C32.v
theories/Props/C33.v
theories/Props/C34.v
theories/Props/C35.v
theories/Props/C36.v
theories/Props/C37.v
theories/Props/C38.v
theories/Props/C39.v
theories/Props/C40.v
theories/Props/C41.v
theories/Props/C42.v
theories/Props/C43.v
theories/Props/C44.v
theories/Props/C45.v
theories/Props/C46.v
theories/Props/C47.v
theories/Props/C48.v
theories/Props/C49.v
theories/Props/C50.v
theories/Props/C51.v
theories/Props/C52.v
theories/Props/C53.v
theories/Props/C54.v
theories/Props/C55.v
theories/Props/C56.v
theories/Props/C57.v
theories/Props/C58.v
theories/Props/C59.v
theories/Props/C60.v
theories/Props/C61.v
theories/Props/C62.v
theories/Props/C63.v
theories/Props/C64.v
theories/Props/C65.v
theories/Props/C66.v
theories/Props/C67.v
theories/Props/C68.v
theories/Props/C69.v
theories/Props/C70.v
theories/Props/C71.v
theories/Props/C72.v
theories/Props/C73.v
theories/Props/C74.v
theories/Props/C75.v
theories/Props/C76.v
theories/Props/C77.v
theories/Props/C78.v
theories/Props/C79.v
theories/Props/C80.v
theories/Props/C81.v
theories/Props/C82.v
theories/Props/C83.v
theories/Props/C84.v
theories/Props/C85.v
theories/Props/C86.v
theories/Props/C87.v
theories/Props/C88.v
theories/Spec/Aes.v
theories/Spec/Basic.v
theories/Spec/Blind.v
theories/Spec/Boot.v
theories/Spec/BootBin.v
theories/Spec/BootLwe.v
theories/Spec/Calls.v
theories/Spec/Cipher.v
theories/Spec/ConcreteNtt.v
theories/Spec/Count.v
theories/Spec/Counting.v
theories/Spec/Decimal.v
theories/Spec/Declare.v
theories/Spec/Example.v
theories/Spec/Gates.v
theories/Spec/Gauss.v
theories/Spec/Hiding.v
theories/Spec/HidingKeys.v
theories/Spec/KeyGen.v
theories/Spec/Lattice.v
theories/Spec/LatticeTest.v
theories/Spec/Layer.v
theories/Spec/Limbs.v
theories/Spec/LinProg.v
theories/Spec/Machine.v
theories/Spec/MillerRabin.v
theories/Spec/Moment.v
theories/Spec/Noise.v
theories/Spec/OneStream.v
theories/Spec/Poly.v
theories/Spec/Profiles.v
theories/Spec/Programs.v
theories/Spec/Relaxed.v
theories/Spec/Ring.v
theories/Spec/RingProg.v
theories/Spec/Sampled.v
theories/Spec/Stream.v
theories/Spec/SubGauss.v
theories/Spec/Switch.v
