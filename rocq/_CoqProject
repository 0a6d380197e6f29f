-Q theories Verif
theories/GoBase.v
theories/Codec.v
theories/CodecSpec.v
theories/CodecProofs.v
theories/Store.v
theories/Crc.v
theories/CrcSpec.v
theories/CrcProofs.v
theories/Api.v
theories/Server.v
theories/WireSpec.v
theories/WireProofs.v
theories/TraceSpec.v
theories/StoreProofs.v
theories/ServerProofs.v
theories/ExchangeProofs.v
theories/ReplySpec.v
theories/RequestProofs.v
theories/DispatchProofs.v
theories/WalkProofs.v
theories/ListProofs.v
theories/CommitProofs.v
theories/OffProofs.v
theories/SyncProofs.v
theories/FetchEnc.v
theories/CodecMore.v
theories/FetchProofs.v
theories/FetchLive.v
theories/FetchPanics.v
theories/FetchDoom.v
theories/ReplyMore.v
theories/Demo.v
theories/StreamSpec.v
theories/StreamProofs.v
theories/ShapeSpec.v
theories/ShapeProofs.v
theories/RejectProofs.v
theories/AcceptProofs.v
theories/CallSpec.v
theories/CallProofs.v
theories/StateProofs.v
theories/ConsumerSpec.v
theories/ConsumerProofs.v
theories/ConsumerDemo.v
theories/HeaderSpec.v
theories/HeaderProofs.v
theories/Race.v
theories/RaceSpec.v
theories/RaceProofs.v
theories/RaceCode.v
theories/RaceReal.v
theories/Legacy.v
theories/LegacySpec.v
theories/LegacyProofs.v
theories/Alias.v
theories/AliasSpec.v
theories/AliasProofs.v
theories/Lifecycle.v
theories/LifeBase.v
theories/LifeProofs.v
theories/LifeSpec.v
theories/LifeTrace.v
theories/LifeMore.v
theories/LifeCalls.v
theories/LifeWait.v
theories/LifePanics.v
theories/LifeApi.v
theories/LifeTable.v
theories/LifeClients.v
theories/LifeStop.v
theories/LifeLive.v
theories/LifeRest.v
theories/LifeEnd.v
theories/LifeLost.v
theories/LifeCrash.v
theories/LifeRestart.v
theories/LifeDemo.v
theories/PropsCodec.v
theories/PropsReplies.v
theories/PropsServer.v
theories/PropsStore.v
theories/PropsConsumer.v
theories/PropsHeaders.v
theories/PropsLife.v
theories/PropsRace.v
theories/PropsLegacy.v
theories/PropsAlias.v
theories/AtomSpec.v
theories/AtomProofs.v
theories/AtomServer.v
theories/PropsAtom.v
theories/BufioReader.v
theories/BufioWriter.v
theories/PropsBufio.v
theories/Whole.v
theories/WholeSpec.v
theories/WholeProofs.v
theories/WholeEnd.v
theories/WholeDrain.v
theories/WholeHang.v
theories/WholeDemo.v
theories/PropsWhole.v
theories/WaitGroups.v
theories/WaitSpec.v
theories/WaitProofs.v
theories/WaitMore.v
theories/PropsWait.v
theories/Closing.v
theories/CloseSpec.v
theories/CloseProofs.v
theories/CloseMore.v
theories/CloseDemo.v
theories/PropsClose.v
theories/NetErrors.v
theories/NetSpec.v
theories/NetProofs.v
theories/PropsNet.v
theories/LifeMem.v
theories/LifeRace.v
theories/LifeFoot.v
theories/LifeRaceDemo.v
theories/PropsLifeRace.v
theories/Unlocked.v
theories/UnlockedProofs.v
theories/UnlockedDemo.v
theories/PropsUnlocked.v
theories/Alloc.v
theories/AllocProofs.v
theories/PropsAlloc.v
theories/GroupSpec.v
theories/GroupProofs.v
theories/GroupDemo.v
theories/PropsGroup.v
theories/OddSpec.v
theories/OddProofs.v
theories/OddSim.v
theories/OddReplies.v
theories/PropsOdd.v
theories/UnseenSpec.v
theories/UnseenProofs.v
theories/PropsUnseen.v
theories/TurnSpec.v
theories/TurnProofs.v
theories/PropsTurn.v
theories/PartSpec.v
theories/PartProofs.v
theories/PropsPart.v
theories/HugeProofs.v
theories/VersionsProofs.v
theories/Views.v
theories/ViewsSpec.v
theories/ViewsProofs.v
theories/ViewsReq.v
theories/PropsViews.v
theories/DisagreeSpec.v
theories/DisagreeProofs.v
theories/PropsDisagree.v
theories/TimeSpec.v
theories/TimeProofs.v
theories/PropsTime.v
theories/InertSpec.v
theories/InertProofs.v
theories/PropsInert.v
theories/Apis.v
theories/ApisProofs.v
theories/PropsApis.v
theories/DetectSpec.v
theories/DetectProofs.v
theories/PropsDetect.v
theories/HeldSpec.v
theories/HeldProofs.v
theories/PropsHeld.v
theories/IdleSpec.v
theories/IdleProofs.v
theories/PropsIdle.v
theories/SnapSpec.v
theories/SnapProofs.v
theories/PropsSnap.v
theories/SeenSpec.v
theories/SeenProofs.v
theories/PropsSeen.v
theories/ThenSpec.v
theories/ThenProofs.v
theories/PropsThen.v
theories/Vectors.v
