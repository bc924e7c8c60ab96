-Q theories Verif
theories/Base.v
theories/StreamModel.v
theories/StreamSpec.v
theories/StreamProofs.v
theories/StreamProps.v
theories/BlobModel.v
theories/BlobProofs.v
theories/BlobProps.v
theories/NetAddrModel.v
theories/NetAddrProps.v
theories/MsgModel.v
theories/MsgProps.v
theories/SegModel.v
theories/SegProps.v
theories/UtilModel.v
theories/UtilProps.v
theories/RecvModel.v
theories/RecvSpec.v
theories/RecvProofs.v
theories/RecvProps.v
theories/SendModel.v
theories/SendProps.v
theories/RefModel.v
theories/RefProps.v
theories/ArcModel.v
theories/ArcProps.v
theories/CallModel.v
theories/CallProps.v
theories/ResultModel.v
theories/ResultProps.v
theories/QueueModel.v
theories/FreeProps.v
theories/QueueSpec.v
theories/QueueProofs.v
theories/QueueProps.v
theories/QueueSeq.v
theories/QueueCap.v
theories/QueueDelModel.v
theories/QueueDelProps.v
theories/QueueOne.v
theories/QueueLive.v
theories/QueueBig.v
theories/QueueMPMC.v
theories/PoolModel.v
theories/PoolProofs.v
theories/PoolInv.v
theories/PoolCalm.v
theories/PoolFed.v
theories/PoolRun.v
theories/PoolLog.v
theories/PoolIds.v
theories/PoolDrain.v
theories/PoolProps.v
theories/PoolFree.v
theories/PoolRace.v
theories/DispModel.v
theories/DispProps.v
theories/ClientModel.v
theories/ClientProps.v
theories/PeerModel.v
theories/PeerInv.v
theories/PeerStep.v
theories/PeerRegProps.v
theories/PeerPair.v
theories/PeerHsProps.v
theories/PeerRetryProps.v
theories/PeerCalmProps.v
theories/MoveModel.v
theories/MoveProps.v
theories/PeerCbProps.v
theories/PeerUbProps.v
theories/ConfModel.v
theories/ConfProps.v
theories/EventModel.v
theories/EventSpec.v
theories/EventProofs.v
theories/EventHist.v
theories/EventProps.v
theories/WorkModel.v
theories/WorkProofs.v
theories/WorkProps.v
theories/WeakModel.v
theories/WeakProofs.v
theories/WeakProps.v
theories/CryptoModel.v
theories/CryptoProps.v
theories/ApiModel.v
theories/ApiProps.v
theories/LifeModel.v
theories/LifeProps.v
theories/StatModel.v
theories/StatProps.v
theories/HandModel.v
theories/HandProps.v
theories/RaceModel.v
theories/RaceProps.v
theories/ClientRace.v
theories/HeartModel.v
theories/HeartProps.v
theories/DialProps.v
theories/ReconSpec.v
theories/ReconNode.v
theories/ReconSys.v
theories/ReconTr.v
theories/ReconInv.v
theories/ReconFin.v
theories/ReconProps.v
theories/AssertProps.v
theories/IdentInv.v
theories/IdentProps.v
theories/PeerEndProps.v
theories/PeerLossProps.v
theories/RetryModel.v
theories/RetryProps.v
theories/DestroyModel.v
theories/DestroyProps.v
theories/PeerIdModel.v
theories/PeerIdProps.v
theories/CertModel.v
theories/CertProps.v
theories/FatalModel.v
theories/FatalProps.v
theories/LeakProps.v
theories/FairProps.v
theories/HelpModel.v
theories/HelpProps.v
theories/TimeModel.v
theories/TimeProps.v
theories/DoubleModel.v
theories/DoubleProps.v
theories/LogModel.v
theories/LogProps.v
theories/DateModel.v
theories/DateProps.v
theories/ShortModel.v
theories/ShortProps.v
