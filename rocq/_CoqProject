-Q theories Verif
theories/Field.v
theories/Fp.v
theories/Vec.v
theories/Group.v
theories/Util.v
theories/UtilProofs.v
theories/Transcript.v
theories/Generators.v
theories/CS.v
theories/CSSpec.v
theories/CSProofs.v
theories/Lockstep.v
theories/CSLogic.v
theories/FlatProofs.v
theories/CSMore.v
theories/Toy.v
theories/GenProofs.v
theories/PropsCS.v
theories/PropsUtil.v
theories/IPP.v
theories/IPPSpec.v
theories/IPPProofs.v
theories/IPPSound.v
theories/PropsIPP.v
theories/R1CS.v
theories/R1CSPoly.v
theories/R1CSAlg.v
theories/R1CSSpec.v
theories/R1CSProofs.v
theories/R1CSCore.v
theories/R1CSMain.v
theories/R1CSVerif.v
theories/R1CSMore.v
theories/R1CSTotal.v
theories/R1CSMisc.v
theories/R1CSBatch.v
theories/PropsR1CS.v
theories/WIProofs.v
theories/PropsHiding.v
theories/CSExact.v
theories/Gadgets.v
theories/GadgetProofs.v
theories/Curve.v
theories/CurveGadgets.v
theories/RerandArith.v
theories/RerandTables.v
theories/RerandProofs.v
theories/RerandMore.v
theories/Fermat.v
theories/SingleLevel.v
theories/SinglePanics.v
theories/Tree.v
theories/TreeProofs.v
theories/ToyCurve.v
theories/PropsGadgets.v
theories/PropsRerand.v
theories/PropsSingle.v
theories/PropsTree.v
theories/SelRerand.v
theories/SelSim.v
theories/SelPath.v
theories/PropsSelRerand.v
theories/PropsPrivacy.v
theories/SelBatch.v
theories/PropsSelBatch.v
theories/Serial.v
theories/PropsSerial.v
theories/Coin.v
theories/Wider.v
theories/CoinProofs.v
theories/PourProofs.v
theories/PropsCoin.v
theories/Binding.v
theories/PropsBinding.v
theories/SoundSpec.v
theories/Forge.v
theories/SoundCount.v
theories/SoundSplit.v
theories/SoundIPP.v
theories/SoundFree.v
theories/SoundMain.v
theories/SoundGame.v
theories/SoundLift.v
theories/ForgeProofs.v
theories/PropsSound.v
theories/ForgePath.v
theories/ForgePour.v
theories/PropsForge.v
theories/PropsCounterfeit.v
theories/CircuitSize.v
theories/PropsSize.v
theories/ForgeVec.v
theories/ForgeVecProofs.v
theories/PropsForgeVec.v
theories/Inflate.v
theories/PropsInflate.v
theories/Depth.v
theories/PropsDepth.v
theories/PropsConserve.v
theories/Shuffle.v
theories/ShuffleProofs.v
theories/PropsShuffle.v
theories/Late.v
theories/Accumulator.v
theories/AccCount.v
theories/AccProofs.v
theories/PropsAcc.v
theories/Clients.v
theories/PropsClients.v
theories/PropsAccSound.v
theories/VecClients.v
theories/PropsVecClients.v
theories/ForgeBatch.v
theories/PropsForgeBatch.v
theories/SelBench.v
theories/SelBenchProofs.v
theories/PropsSelBench.v
theories/TiedProofs.v
theories/TiedComplete.v
theories/PropsTied.v
theories/PourBench.v
theories/PropsPourBench.v
theories/ShuffleBatch.v
theories/PropsShuffleBatch.v
theories/PropsShuffleExact.v
theories/SelectClient.v
theories/PropsSelectClient.v
theories/LookupClient.v
theories/PropsLookupClient.v
theories/PropsLookupWrong.v
