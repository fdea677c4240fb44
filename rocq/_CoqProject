-Q theories Verif

theories/Base/Base.v
theories/Base/Strs.v
theories/Model/Cfb.v
theories/Model/ChainCount.v
theories/Model/CipherMem.v
theories/Model/CleanMap.v
theories/Model/ClosedClient.v
theories/Model/Coordinator.v
theories/Model/Deployment.v
theories/Model/DigestText.v
theories/Model/DirectClient.v
theories/Model/DirectNet.v
theories/Model/DirectServer.v
theories/Model/DirectUp.v
theories/Model/Ecc.v
theories/Model/EccMem.v
theories/Model/EccPool.v
theories/Model/Fleet.v
theories/Model/Gc.v
theories/Model/HashWriter.v
theories/Model/KeyConfig.v
theories/Model/KeyMem.v
theories/Model/KeySeed.v
theories/Model/Lifecycle.v
theories/Model/Memo.v
theories/Model/Merkle.v
theories/Model/Messages.v
theories/Model/Mixer.v
theories/Model/Network.v
theories/Model/Notes.v
theories/Model/Onion.v
theories/Model/PlainGrpc.v
theories/Model/ProofPub.v
theories/Model/Rand.v
theories/Model/Relay.v
theories/Model/RelayConn.v
theories/Model/RelayStreams.v
theories/Model/RelayUp.v
theories/Model/Request.v
theories/Model/Robust.v
theories/Model/RobustNet.v
theories/Model/Rounds.v
theories/Model/ServerStop.v
theories/Model/ServerStreams.v
theories/Model/Services.v
theories/Model/Shuffle.v
theories/Model/Status.v
theories/Model/SyncMap.v
theories/Model/System.v
theories/Model/Tibe.v
theories/Model/TibeCodec.v
theories/Model/Topology.v
theories/Model/Verifier.v
theories/Model/VerifierPool.v
theories/Model/Wire.v
theories/Model/WireRequests.v
theories/Proofs/BlsOrder.v
theories/Proofs/CfbProofs.v
theories/Proofs/ChainCountProofs.v
theories/Proofs/DeploymentProofs.v
theories/Proofs/EccPoolProofs.v
theories/Proofs/FleetExec.v
theories/Proofs/FleetLive.v
theories/Proofs/FleetMain.v
theories/Proofs/FleetProofs.v
theories/Proofs/FleetSim.v
theories/Proofs/FpSetting.v
theories/Proofs/KeyMemProofs.v
theories/Proofs/KeySeedProofs.v
theories/Proofs/MemoProofs.v
theories/Proofs/MerkleProofs.v
theories/Proofs/MessagesProofs.v
theories/Proofs/MixerExec.v
theories/Proofs/MixerInv.v
theories/Proofs/MixerLive.v
theories/Proofs/MixerProps.v
theories/Proofs/OnionProofs.v
theories/Proofs/RobustCall.v
theories/Proofs/RobustNetProofs.v
theories/Proofs/RobustProofs.v
theories/Proofs/RoundsProofs.v
theories/Proofs/ServerStopProofs.v
theories/Proofs/ShuffleProofs.v
theories/Proofs/SystemProofs.v
theories/Proofs/TibeProofs.v
theories/Proofs/TopologyProofs.v
theories/Proofs/VerifierExec.v
theories/Proofs/VerifierLive.v
theories/Proofs/VerifierPoolProofs.v
theories/Proofs/VerifierProofs.v
theories/Properties/P01_Topology.v
theories/Properties/P02_Shuffle.v
theories/Properties/P03_Onion.v
theories/Properties/P04_Mixer.v
theories/Properties/P05_Rounds.v
theories/Properties/P06_Merkle.v
theories/Properties/P07_Verifier.v
theories/Properties/P08_Messages.v
theories/Properties/P09_Tibe.v
theories/Properties/P10_TibeCache.v
theories/Properties/P11_TibeCodec.v
theories/Properties/P12_CipherMem.v
theories/Properties/P13_KeyConfig.v
theories/Properties/P14_Ecc.v
theories/Properties/P15_Services.v
theories/Properties/P16_Network.v
theories/Properties/P17_Collector.v
theories/Properties/P18_Robust.v
theories/Properties/P19_Requests.v
theories/Properties/P20_DirectClient.v
theories/Properties/P21_Streams.v
theories/Properties/P22_DirectServer.v
theories/Properties/P23_Relay.v
theories/Properties/P24_Malformed.v
theories/Properties/P25_Coordinator.v
theories/Properties/P26_RelayConn.v
theories/Properties/P27_System.v
theories/Properties/P28_Deployment.v
theories/Properties/P29_Workflow.v
theories/Properties/P30_KeySeed.v
theories/Properties/P31_Outsider.v
theories/Properties/P32_ClosedClient.v
theories/Properties/P33_Fleet.v
theories/Properties/P34_VerifierPool.v
theories/Properties/P35_EccPool.v
theories/Properties/P36_EccMem.v
theories/Properties/P37_Lifecycle.v
theories/Properties/P38_Notes.v
theories/Properties/P39_ServerStop.v
theories/Properties/P40_RobustNet.v
theories/Properties/P41_PlainGrpc.v
theories/Properties/P42_DirectNet.v
theories/Properties/P43_ProofPub.v
theories/Properties/P44_DigestText.v
theories/Properties/P45_RelayStreams.v
theories/Properties/P46_KeyMem.v
theories/Properties/P47_KeyMemTibe.v
theories/Properties/P48_Secrecy.v
theories/Properties/P49_Unlinkable.v
theories/Properties/P50_Dealer.v
theories/Properties/P51_ShuffleBias.v
theories/Properties/P52_HashWriter.v
theories/Properties/P53_OnionSize.v
theories/Properties/P54_RightKey.v
theories/Properties/P55_Replay.v
theories/Properties/P56_AllOrNothing.v
theories/Properties/P57_Wire.v
theories/Properties/P58_Coalition.v
theories/Properties/P59_DeployedRounds.v
theories/Properties/P60_RelayForgery.v
theories/Properties/P61_WireRequests.v
theories/Properties/P62_Replay.v
theories/Properties/P63_Status.v
theories/Properties/P64_ClientPoison.v
theories/Properties/P65_DirectPoison.v
theories/Properties/P66_SyncMap.v
theories/Properties/P67_CleanMap.v
theories/Properties/P68_Rand.v
theories/Spec/DeploymentSpec.v
theories/Spec/EccPoolSpec.v
theories/Spec/FleetSpec.v
theories/Spec/KeySeedSpec.v
theories/Spec/MerkleSpec.v
theories/Spec/MessagesSpec.v
theories/Spec/MixerSpec.v
theories/Spec/RobustSpec.v
theories/Spec/RoundsSpec.v
theories/Spec/ServerStopSpec.v
theories/Spec/SystemSpec.v
theories/Spec/TibeSpec.v
theories/Spec/VerifierPoolSpec.v
theories/Spec/VerifierSpec.v
