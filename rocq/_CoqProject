-Q theories Verif
theories/Base/Go.v
theories/Base/HashApi.v
theories/Model/Hex.v
theories/Model/Bcc.v
theories/Model/Lrc.v
theories/Model/Fletcher.v
theories/Model/Luhn.v
theories/Model/Endian.v
theories/Spec/HexSpec.v
theories/Spec/ChecksumSpec.v
theories/Proofs/Util.v
theories/Proofs/HexProofs.v
theories/Proofs/HashRun.v
theories/Proofs/ChecksumProofs.v
theories/Proofs/FletcherProofs.v
theories/Proofs/Fletcher16Proofs.v
theories/Props/HexProps.v
theories/Props/ChecksumProps.v
theories/Base/Mem.v
theories/Model/Bytes.v
theories/Spec/BytesSpec.v
theories/Proofs/BytesProofs.v
theories/Proofs/BytesAlias.v
theories/Proofs/BytesInner.v
theories/Props/BytesProps.v
theories/Base/GoNet.v
theories/Base/NetApi.v
theories/Model/Net.v
theories/Model/NetEffects.v
theories/Spec/NetSpec.v
theories/Spec/NetEffectSpec.v
theories/Proofs/NetTree.v
theories/Proofs/NetList.v
theories/Proofs/NetBlocks.v
theories/Proofs/NetBasic.v
theories/Proofs/NetMore.v
theories/Proofs/NetRange.v
theories/Proofs/NetProofs.v
theories/Proofs/NetEffectProofs.v
theories/Proofs/NetEffectMore.v
theories/Props/NetProps.v
theories/Props/NetEffectProps.v
theories/Model/Codegen.v
theories/Spec/CodegenSpec.v
theories/Proofs/CodegenProofs.v
theories/Props/CodegenProps.v
theories/Base/DigestApi.v
theories/Spec/DigestSpec.v
theories/Spec/RipemdSpec.v
theories/Model/HashBlock.v
theories/Model/Ripemd.v
theories/Proofs/DigestProofs.v
theories/Proofs/RipemdProofs.v
theories/Props/RipemdProps.v
theories/Spec/WhirlpoolSpec.v
theories/Model/WhirlpoolTables.v
theories/Model/Whirlpool.v
theories/Proofs/WhirlpoolProofs.v
theories/Props/WhirlpoolProps.v
theories/Base/GoStrings.v
theories/Base/TestApi.v
theories/Model/TestPkg.v
theories/Spec/TestSpec.v
theories/Spec/Utf8Spec.v
theories/Proofs/TestProofs.v
theories/Proofs/Utf8Proofs.v
theories/Proofs/Utf8More.v
theories/Proofs/HashTestProofs.v
theories/Props/TestProps.v
theories/Props/Utf8Props.v
theories/Model/MakeTables.v
theories/Spec/GoSourceSpec.v
theories/Proofs/MakeTablesProofs.v
theories/Props/MakeTablesProps.v
theories/Base/Heap.v
theories/Base/HashUse.v
theories/Model/HashMem.v
theories/Spec/HashUseSpec.v
theories/Proofs/HeapProofs.v
theories/Proofs/HashMemProofs.v
theories/Proofs/HashUseProofs.v
theories/Props/HashUseProps.v
theories/Spec/CollisionSpec.v
theories/Proofs/CollisionProofs.v
theories/Props/CollisionProps.v
theories/Base/NetUse.v
theories/Model/NetMem.v
theories/Spec/NetUseSpec.v
theories/Proofs/NetUseProofs.v
theories/Props/NetUseProps.v
theories/Spec/BurstSpec.v
theories/Proofs/BurstProofs.v
theories/Props/BurstProps.v
theories/Spec/OrderSpec.v
theories/Proofs/OrderProofs.v
theories/Props/OrderProps.v
theories/Spec/AccumulateSpec.v
theories/Proofs/AccumulateProofs.v
theories/Props/AccumulateProps.v
theories/Base/Goroutine.v
theories/Base/GoUse.v
theories/Base/LibUse.v
theories/Model/HashAtom.v
theories/Model/HexAtom.v
theories/Spec/GoUseSpec.v
theories/Spec/LibUseSpec.v
theories/Proofs/GoroutineProofs.v
theories/Proofs/HashAtomProofs.v
theories/Proofs/GoUseProofs.v
theories/Proofs/HexAtomProofs.v
theories/Proofs/LibUseProofs.v
theories/Props/GoUseProps.v
theories/Props/LibUseProps.v
theories/Base/HmacUse.v
theories/Spec/HmacSpec.v
theories/Model/Hmac.v
theories/Proofs/HmacProofs.v
theories/Props/HmacProps.v
theories/Base/BytesUse.v
theories/Spec/BytesUseSpec.v
theories/Model/BytesAtom.v
theories/Proofs/ShareProofs.v
theories/Proofs/BytesAtomProofs.v
theories/Props/BytesUseProps.v
theories/Spec/CombineSpec.v
theories/Proofs/CombineProofs.v
theories/Props/CombineProps.v
theories/Spec/ExtendSpec.v
theories/Proofs/ExtendProofs.v
theories/Props/ExtendProps.v
theories/Base/NetGo.v
theories/Model/NetAtom.v
theories/Spec/NetGoSpec.v
theories/Proofs/NetAtomProofs.v
theories/Proofs/NetGoProofs.v
theories/Proofs/NetGoUnique.v
theories/Props/NetGoProps.v
theories/Base/Cost.v
theories/Spec/CostSpec.v
theories/Proofs/CostProofs.v
theories/Proofs/CostBytes.v
theories/Proofs/CostNet.v
theories/Props/CostProps.v
theories/Base/Trace.v
theories/Spec/TraceSpec.v
theories/Proofs/TraceProofs.v
theories/Proofs/TraceBytes.v
theories/Proofs/TraceGo.v
theories/Props/TraceProps.v
theories/Model/NetZero.v
theories/Spec/NetZeroSpec.v
theories/Proofs/NetZeroProofs.v
theories/Props/NetZeroProps.v
theories/Spec/NetOrderSpec.v
theories/Proofs/NetOrder.v
theories/Props/NetOrderProps.v
theories/Spec/LibCostSpec.v
theories/Proofs/CostHex.v
theories/Props/LibCostProps.v
theories/Spec/LibTraceSpec.v
theories/Proofs/LibTrace.v
theories/Props/LibTraceProps.v
theories/Spec/NetValueSpec.v
theories/Proofs/NetValue.v
theories/Props/NetValueProps.v
theories/Base/Lock.v
theories/Base/LockUse.v
theories/Model/LockAtom.v
theories/Spec/LockSpec.v
theories/Proofs/LockProofs.v
theories/Props/LockProps.v
theories/Base/NetLock.v
theories/Model/NetLockAtom.v
theories/Spec/NetLockSpec.v
theories/Proofs/AreaProofs.v
theories/Proofs/NetLockNodes.v
theories/Proofs/NetLockProofs.v
theories/Props/NetLockProps.v
theories/Spec/CountSpec.v
theories/Proofs/CountProofs.v
theories/Props/CountProps.v
theories/Proofs/HashAreaProofs.v
theories/Proofs/HashAreaUse.v
theories/Base/Sync.v
theories/Model/SyncAtom.v
theories/Spec/SyncSpec.v
theories/Proofs/NetAreaNodes.v
theories/Proofs/HexAreaProofs.v
theories/Proofs/SyncProofs.v
theories/Proofs/SyncEndProofs.v
theories/Spec/RelaySpec.v
theories/Proofs/RelayProofs.v
theories/Proofs/PublishProofs.v
theories/Proofs/RelayEndProofs.v
theories/Props/SyncProps.v
theories/Spec/SnapshotSpec.v
theories/Proofs/SnapshotProofs.v
theories/Props/SnapshotProps.v
theories/Spec/PostSpec.v
theories/Proofs/PostProofs.v
theories/Proofs/PostEndProofs.v
theories/Props/PostProps.v
theories/Model/NetNil.v
theories/Spec/NetNilSpec.v
theories/Proofs/NetNilProofs.v
theories/Props/NetNilProps.v
theories/Spec/PadSpec.v
theories/Proofs/PadProofs.v
theories/Props/PadProps.v
