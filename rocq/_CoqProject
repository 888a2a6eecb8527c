-Q theories Verif
theories/Base.v
theories/Kv.v
theories/BytesFacts.v
theories/KvFacts.v
theories/ChainModel.v
theories/ChainSpec.v
theories/ChainTree.v
theories/ChainRep.v
theories/ChainStep.v
theories/ChainQueries.v
theories/ChainLca.v
theories/ChainProofs.v
theories/ChainForks.v
theories/ForkProofs.v
theories/ChainExample.v
theories/ChainProps.v
theories/ForkProps.v
theories/PeersModel.v
theories/PeersSpec.v
theories/PeersProofs.v
theories/PeersCalls.v
theories/PeersProps.v
theories/ApiModel.v
theories/ApiSpec.v
theories/ApiProofs.v
theories/ApiProps.v
theories/LoadModel.v
theories/LoadSpec.v
theories/LoadProofs.v
theories/LoadFire.v
theories/LoadSim.v
theories/LoadCalm.v
theories/LoadLoop.v
theories/LoadRule.v
theories/LoadTwo.v
theories/LoadBatch.v
theories/LoadReal.v
theories/LoadLeash.v
theories/LoadProps.v
theories/LockModel.v
theories/LockSpec.v
theories/LockProofs.v
theories/LockLink.v
theories/LockLive.v
theories/LockProps.v
theories/NetModel.v
theories/NetSpec.v
theories/NetProofs.v
theories/NetDist.v
theories/NetProps.v
theories/SyncSpec.v
theories/SyncProofs.v
theories/SyncProps.v
theories/ForeignProps.v
theories/OrderProps.v
theories/RegModel.v
theories/RegProps.v
theories/LoadLift.v
theories/LoadSource.v
theories/WholeModel.v
theories/WholeSpec.v
theories/WholeProofs.v
theories/WholeSource.v
theories/WholeProps.v
theories/LifeModel.v
theories/LifeSpec.v
theories/LifeProofs.v
theories/LifeProps.v
theories/SessionProps.v
theories/NameProps.v
theories/StopProps.v
theories/FeedProps.v
theories/DialProofs.v
theories/DialProps.v
theories/DeliverProps.v
theories/StallProps.v
theories/MainModel.v
theories/MainProps.v
theories/RecordProps.v
theories/ServeModel.v
theories/ServeProps.v
theories/HonestSpec.v
theories/HonestProofs.v
theories/HonestMid.v
theories/HonestSync.v
theories/HonestProps.v
theories/CborModel.v
theories/CborProofs.v
theories/CborStore.v
theories/CborProps.v
theories/EndProps.v
theories/RawModel.v
theories/RawProofs.v
theories/RawProps.v
theories/TextModel.v
theories/TextProps.v
theories/TimerProps.v
theories/ReadModel.v
theories/ReadProofs.v
theories/ReadProps.v
theories/PeersReadModel.v
theories/PeersReadProps.v
theories/NetipModel.v
theories/NetipProofs.v
theories/NetipProofs2.v
theories/NetipProofs3.v
theories/NetipProps.v
theories/LoadUpto.v
theories/LastProps.v
theories/RangeProps.v
theories/AlarmProofs.v
theories/AlarmProps.v
theories/CanonProps.v
theories/BridgeModel.v
theories/BridgeProps.v
theories/DetectProps.v
theories/AnswerProofs.v
theories/AnswerProps.v
theories/BeginProofs.v
theories/BeginProps.v
theories/PagesProps.v
theories/RestartProofs.v
theories/RestartProps.v
theories/StartProps.v
theories/LivesProps.v
theories/PeerTextModel.v
theories/PeerTextProps.v
