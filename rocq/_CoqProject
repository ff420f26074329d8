-Q theories Verif
theories/Lib/Base.v
theories/Lib/Bytes.v
theories/Lib/ListX.v
theories/Lib/Count.v
theories/Lib/Decimal.v
theories/Buffer/Model.v
theories/Buffer/Spec.v
theories/Buffer/Machine.v
theories/Buffer/Proofs.v
theories/Buffer/ProofsFind.v
theories/Buffer/ProofsStreams.v
theories/Buffer/ProofsSearch.v
theories/Buffer/ProofsMain.v
theories/Buffer/Props.v
theories/TrpcCodec/Model.v
theories/TrpcCodec/Spec.v
theories/TrpcCodec/Machine.v
theories/TrpcCodec/Proofs.v
theories/TrpcCodec/ProofsChecker.v
theories/TrpcCodec/Instance.v
theories/TrpcCodec/ProofsMain.v
theories/TrpcCodec/ProofsExact.v
theories/TrpcCodec/Props.v
theories/LoadBalance/Model.v
theories/LoadBalance/Spec.v
theories/LoadBalance/Proofs.v
theories/LoadBalance/ProofsHash.v
theories/LoadBalance/ProofsExact.v
theories/LoadBalance/Props.v
theories/Overload/Model.v
theories/Overload/Spec.v
theories/Overload/ProofsTB.v
theories/Overload/ProofsSec.v
theories/Overload/ProofsSmooth.v
theories/Overload/Props.v
theories/Filter/Model.v
theories/Filter/Spec.v
theories/Filter/Proofs.v
theories/Filter/Props.v
theories/Container/Model.v
theories/Container/Spec.v
theories/Container/Proofs.v
theories/Container/Props.v
theories/Timer/Model.v
theories/Timer/Spec.v
theories/Timer/Proofs.v
theories/Timer/ProofsQ.v
theories/Timer/Props.v
theories/HttpCodec/Model.v
theories/HttpCodec/Spec.v
theories/HttpCodec/Proofs.v
theories/HttpCodec/ProofsB64.v
theories/HttpCodec/Props.v
theories/HttpFields/Model.v
theories/HttpFields/Spec.v
theories/HttpFields/Proofs.v
theories/HttpFields/ProofsOrder.v
theories/HttpFields/Props.v
theories/HttpRoute/Model.v
theories/HttpRoute/Spec.v
theories/HttpRoute/Proofs.v
theories/HttpRoute/Props.v
theories/Strings/Model.v
theories/Strings/Spec.v
theories/Strings/Proofs.v
theories/Strings/ProofsNum.v
theories/Strings/Props.v
theories/Redis/Model.v
theories/Redis/Spec.v
theories/Redis/ProofsFlat.v
theories/Redis/ProofsReader.v
theories/Redis/ProofsWire.v
theories/Redis/ProofsFormat.v
theories/Redis/Props.v
theories/HttpUrl/Model.v
theories/HttpUrl/Spec.v
theories/HttpUrl/Proofs.v
theories/HttpUrl/ProofsParts.v
theories/HttpUrl/Props.v
theories/Stream/Model.v
theories/Stream/Spec.v
theories/Stream/Proofs.v
theories/Stream/PropsFlow.v
theories/Stream/ModelReader.v
theories/Stream/SpecReader.v
theories/Stream/ProofsReader.v
theories/Stream/PropsReader.v
theories/Future/Model.v
theories/Future/Spec.v
theories/Future/Proofs.v
theories/Future/Props.v
theories/Future/ModelWhen.v
theories/Future/SpecWhen.v
theories/Future/ProofsWhen.v
theories/Future/PropsWhen.v
theories/AsyncLock/Model.v
theories/AsyncLock/Spec.v
theories/AsyncLock/Proofs.v
theories/AsyncLock/Props.v
theories/Queue/ModelMpmc.v
theories/Queue/SpecMpmc.v
theories/Queue/ProofsMpmc.v
theories/Queue/PropsMpmc.v
theories/Queue/ModelSpmc.v
theories/Queue/SpecSpmc.v
theories/Queue/ProofsSpmc.v
theories/Queue/PropsSpmc.v
theories/Queue/ModelRun.v
theories/Queue/SpecRun.v
theories/Queue/ProofsRun.v
theories/Queue/PropsRun.v
theories/MemPool/Model.v
theories/MemPool/Spec.v
theories/MemPool/SpecRun.v
theories/MemPool/Proofs.v
theories/MemPool/ProofsProps.v
theories/MemPool/Props.v
theories/FiberSync/ModelMutex.v
theories/FiberSync/SpecMutex.v
theories/FiberSync/ProofsMutex.v
theories/FiberSync/PropsMutex.v
theories/FiberSync/ModelShared.v
theories/FiberSync/SpecShared.v
theories/FiberSync/ProofsShared.v
theories/FiberSync/ProofsSharedProps.v
theories/FiberSync/PropsShared.v
theories/FiberQueue/Model.v
theories/FiberQueue/Spec.v
theories/FiberQueue/Proofs.v
theories/FiberQueue/ProofsProps.v
theories/FiberQueue/Props.v
theories/FiberSync/ModelCv.v
theories/FiberSync/SpecCv.v
theories/FiberSync/ProofsCv.v
theories/FiberSync/ProofsCvProps.v
theories/FiberSync/ProofsCvBad.v
theories/FiberSync/PropsCv.v
theories/Grpc/Model.v
theories/Grpc/Spec.v
theories/Grpc/Proofs.v
theories/Grpc/ProofsNum.v
theories/Grpc/ProofsReq.v
theories/Grpc/Props.v
theories/StreamSched/Model.v
theories/StreamSched/Spec.v
theories/StreamSched/Proofs.v
theories/StreamSched/Props.v
theories/StreamProto/Model.v
theories/StreamProto/Spec.v
theories/StreamProto/Proofs.v
theories/StreamProto/ProofsPolite.v
theories/StreamProto/ProofsRuns.v
theories/StreamProto/Props.v
theories/WriteList/Model.v
theories/WriteList/Spec.v
theories/WriteList/Proofs.v
theories/WriteList/ProofsAppend.v
theories/WriteList/ProofsFlush.v
theories/WriteList/ProofsReach.v
theories/WriteList/ProofsMain.v
theories/WriteList/ProofsAlive.v
theories/WriteList/ProofsRuns.v
theories/WriteList/Props.v
theories/FiberConn/Model.v
theories/FiberConn/Spec.v
theories/FiberConn/Inv.v
theories/FiberConn/Tactics.v
theories/FiberConn/ProofsReactor.v
theories/FiberConn/ProofsRead.v
theories/FiberConn/ProofsWrite.v
theories/FiberConn/ProofsInv.v
theories/FiberConn/Proofs.v
theories/FiberConn/ProofsQuiet.v
theories/FiberConn/ProofsRuns.v
theories/FiberConn/ProofsTold.v
theories/FiberConn/ProofsUnread.v
theories/FiberConn/ProofsMain.v
theories/FiberConn/Props.v
theories/Tvar/Model.v
theories/Tvar/Spec.v
theories/Tvar/ProofsWord.v
theories/Tvar/Proofs.v
theories/Tvar/ProofsRead.v
theories/Tvar/ProofsMain.v
theories/Tvar/Props.v
theories/Percentile/Model.v
theories/Percentile/Spec.v
theories/Percentile/ProofsLog.v
theories/Percentile/ProofsMerge.v
theories/Percentile/ProofsFind.v
theories/Percentile/ProofsMain.v
theories/Percentile/ProofsThreads.v
theories/Percentile/ProofsRuns.v
theories/Percentile/Props.v
theories/Window/Model.v
theories/Window/Spec.v
theories/Window/ProofsQueue.v
theories/Window/ProofsSeries.v
theories/Window/ProofsMain.v
theories/Window/Props.v
theories/HttpChunk/Model.v
theories/HttpChunk/Spec.v
theories/HttpChunk/ProofsHex.v
theories/HttpChunk/ProofsServer.v
theories/HttpChunk/ProofsClient.v
theories/HttpChunk/ProofsAsync.v
theories/HttpChunk/ProofsBad.v
theories/HttpChunk/Props.v
theories/HttpFrame/Model.v
theories/HttpFrame/Spec.v
theories/HttpFrame/Toy.v
theories/HttpFrame/ProofsSplit.v
theories/HttpFrame/ProofsServer.v
theories/HttpFrame/ProofsMsg.v
theories/HttpFrame/ProofsClient.v
theories/HttpFrame/ProofsBad.v
theories/HttpFrame/ProofsClientBad.v
theories/HttpFrame/ProofsToy.v
theories/HttpFrame/ProofsCases.v
theories/HttpFrame/Props.v
theories/HttpStream/Model.v
theories/HttpStream/Spec.v
theories/HttpStream/Inv.v
theories/HttpStream/ProofsStep.v
theories/HttpStream/ProofsMain.v
theories/HttpStream/ProofsEnd.v
theories/HttpStream/Props.v
theories/SeqLock/Model.v
theories/SeqLock/Spec.v
theories/SeqLock/Proofs.v
theories/SeqLock/ProofsMain.v
theories/SeqLock/ProofsRuns.v
theories/SeqLock/Props.v
theories/EventCount/Model.v
theories/EventCount/Spec.v
theories/EventCount/Proofs.v
theories/EventCount/ProofsStep.v
theories/EventCount/ProofsMain.v
theories/EventCount/Packed.v
theories/EventCount/ProofsPacked.v
theories/EventCount/Props.v
theories/Backup/Model.v
theories/Backup/Proofs.v
theories/Backup/ProofsStep.v
theories/Backup/ProofsMain.v
theories/Backup/Props.v
theories/TimedMutex/Model.v
theories/TimedMutex/Spec.v
theories/TimedMutex/Proofs.v
theories/TimedMutex/Props.v
theories/FiberLatch/Model.v
theories/FiberLatch/Spec.v
theories/FiberLatch/Proofs.v
theories/FiberLatch/Props.v
