-Q theories Verif
theories/Base.v
theories/BitsModel.v
theories/BitsSpec.v
theories/BitsProofs.v
theories/BitsProps.v
theories/Base64Model.v
theories/Base64Spec.v
theories/Base64Proofs.v
theories/Base64Props.v
theories/Sha1Model.v
theories/Sha1Spec.v
theories/Sha1Proofs.v
theories/Sha1Props.v
theories/SortModel.v
theories/SortSpec.v
theories/SortProofs.v
theories/SortProps.v
theories/Cells.v
theories/Tagged.v
theories/RingModel.v
theories/RingSpec.v
theories/RingProofs.v
theories/RingProps.v
theories/FListModel.v
theories/FListSpec.v
theories/FListProofs.v
theories/FListProps.v
theories/HashModel.v
theories/BucketProofs.v
theories/SetModel.v
theories/SetSpec.v
theories/SetProofs.v
theories/SetProps.v
theories/MapModel.v
theories/MapSpec.v
theories/MapProofs.v
theories/MapProps.v
theories/DSetModel.v
theories/DSetSpec.v
theories/DSetProofs.v
theories/DSetProps.v
theories/MpmcModel.v
theories/MpmcSpec.v
theories/MpmcProofs.v
theories/MpmcProps.v
theories/VecModel.v
theories/VecSpec.v
theories/VecProofs.v
theories/VecProps.v
theories/CappedModel.v
theories/CappedSpec.v
theories/CappedProofs.v
theories/CappedProps.v
theories/StrModel.v
theories/StrSpec.v
theories/StrProofs.v
theories/StrProps.v
theories/SboModel.v
theories/SboSpec.v
theories/SboProofs.v
theories/SboProps.v
theories/NumModel.v
theories/NumSpec.v
theories/NumProofs.v
theories/NumProps.v
theories/SpanModel.v
theories/SpanSpec.v
theories/SpanProofs.v
theories/SpanProps.v
theories/ChunkModel.v
theories/ChunkSpec.v
theories/ChunkProofs.v
theories/ChunkProps.v
theories/ArrModel.v
theories/ArrSpec.v
theories/ArrProofs.v
theories/ArrProps.v
theories/AllocModel.v
theories/AllocSpec.v
theories/AllocProofs.v
theories/AllocProps.v
theories/VAllocModel.v
theories/VAllocSpec.v
theories/VAllocProofs.v
theories/VAllocProps.v
theories/ALinModel.v
theories/ALinSpec.v
theories/ALinProofs.v
theories/ALinProps.v
theories/PoolModel.v
theories/PoolSpec.v
theories/PoolProofs.v
theories/PoolProps.v
theories/LPoolModel.v
theories/LPoolSpec.v
theories/LPoolProofs.v
theories/LPoolProps.v
theories/SpinModel.v
theories/SpinSpec.v
theories/SpinProofs.v
theories/SpinProps.v
theories/OptModel.v
theories/OptSpec.v
theories/OptProofs.v
theories/OptProps.v
theories/ResModel.v
theories/ResSpec.v
theories/ResProofs.v
theories/ResProps.v
theories/VariModel.v
theories/VariSpec.v
theories/VariProofs.v
theories/VariProps.v
theories/CBoxModel.v
theories/CBoxSpec.v
theories/CBoxProofs.v
theories/CBoxProps.v
theories/SPtrModel.v
theories/SPtrSpec.v
theories/SPtrProofs.v
theories/SPtrProps.v
theories/UPtrModel.v
theories/UPtrSpec.v
theories/UPtrProofs.v
theories/UPtrProps.v
theories/BSetModel.v
theories/BSetSpec.v
theories/BSetProofs.v
theories/BSetProps.v
theories/FlagModel.v
theories/FlagSpec.v
theories/FlagProofs.v
theories/FlagProps.v
theories/FmtModel.v
theories/FmtSpec.v
theories/FmtProofs.v
theories/FmtProps.v
theories/HashSpec.v
theories/HashProofs.v
theories/HashProps.v
theories/SStrModel.v
theories/SStrSpec.v
theories/SStrProofs.v
theories/SStrProps.v
theories/RadixModel.v
theories/RadixProofs.v
theories/RadixProps.v
theories/LessModel.v
theories/LessSpec.v
theories/LessProofs.v
theories/LessProps.v
theories/AArrModel.v
theories/AArrSpec.v
theories/AArrProofs.v
theories/AArrProps.v
theories/PAllocModel.v
theories/PAllocSpec.v
theories/PAllocProofs.v
theories/PAllocProps.v
theories/TlsfModel.v
theories/TlsfMapSpec.v
theories/TlsfMapProofs.v
theories/TlsfMapProps.v
theories/TlsfListProofs.v
theories/TlsfPhysProofs.v
theories/TlsfProofs.v
theories/TlsfOpProofs.v
theories/TlsfRealProofs.v
theories/TlsfPoolProofs.v
theories/TlsfAllocModel.v
theories/TlsfSpec.v
theories/TlsfHistProofs.v
theories/TlsfProps.v
theories/TlsfAllocProps.v
theories/XxhModel.v
theories/XxhSpec.v
theories/XxhProofs.v
theories/XxhProps.v
theories/Xxh3Model.v
theories/Xxh3Spec.v
theories/Xxh3Proofs.v
theories/Xxh3ShortProofs.v
theories/Xxh3StreamProofs.v
theories/Xxh3Props.v
theories/XxhInjectProps.v
theories/OwnHeap.v
theories/AllocArrModel.v
theories/AllocArrSpec.v
theories/AllocArrProofs.v
theories/AllocArrProps.v
theories/FwdArrModel.v
theories/FwdArrSpec.v
theories/FwdArrProofs.v
theories/FwdArrProps.v
theories/CapArrModel.v
theories/CapArrSpec.v
theories/CapArrProofs.v
theories/CapArrProps.v
theories/SysAllocModel.v
theories/SysAllocSpec.v
theories/SysAllocProofs.v
theories/SysAllocProps.v
theories/UFunModel.v
theories/UFunSpec.v
theories/UFunProofs.v
theories/UFunProps.v
theories/IntsModel.v
theories/IntsSpec.v
theories/IntsProofs.v
theories/IntsProps.v
theories/AlgoModel.v
theories/AlgoSpec.v
theories/AlgoProofs.v
theories/AlgoProps.v
theories/BoxModel.v
theories/BoxSpec.v
theories/BoxProofs.v
theories/BoxProps.v
theories/ErrMsgModel.v
theories/ErrMsgSpec.v
theories/ErrMsgProofs.v
theories/ErrMsgProps.v
theories/WatchModel.v
theories/WatchSpec.v
theories/WatchProofs.v
theories/WatchProps.v
theories/CStrModel.v
theories/CStrSpec.v
theories/CStrProofs.v
theories/CStrProps.v
theories/TVecModel.v
theories/TVecSpec.v
theories/TVecProofs.v
theories/TVecProps.v
theories/FRefModel.v
theories/FRefSpec.v
theories/FRefProofs.v
theories/FRefProps.v
theories/SyncModel.v
theories/SyncSpec.v
theories/SyncProofs.v
theories/SyncProps.v
theories/WConvModel.v
theories/WConvSpec.v
theories/WConvProofs.v
theories/WConvProps.v
theories/SHeapModel.v
theories/SHeapSpec.v
theories/SHeapProofs.v
theories/SHeapProps.v
theories/AssertModel.v
theories/AssertSpec.v
theories/AssertProofs.v
theories/AssertProps.v
theories/DeferModel.v
theories/DeferSpec.v
theories/DeferProofs.v
theories/DeferProps.v
theories/IntrinModel.v
theories/IntrinSpec.v
theories/IntrinProps.v
theories/PageModel.v
theories/PageProps.v
theories/SyncTlsfProps.v
theories/CallModel.v
theories/CallProps.v
theories/SortCostModel.v
theories/SortCostProofs.v
theories/SortCostProps.v
theories/SortMultiModel.v
theories/SortMultiProofs.v
theories/SortMultiProps.v
theories/GrowSpec.v
theories/GrowProofs.v
theories/GrowVecProofs.v
theories/GrowStreamProofs.v
theories/GrowSboProofs.v
theories/GrowSetProofs.v
theories/GrowMapProofs.v
theories/GrowProps.v
theories/MpmcWeakModel.v
theories/MpmcWeakProofs.v
theories/MpmcWeakProps.v
theories/LPoolWeakModel.v
theories/LPoolWeakProofs.v
theories/LPoolWeakProps.v
theories/ALinWeakModel.v
theories/ALinWeakProofs.v
theories/ALinWeakProps.v
theories/RangeModel.v
theories/RangeProps.v
theories/CollModel.v
theories/CollProps.v
theories/SpinWeakModel.v
theories/SpinWeakProps.v
theories/PoolWeakModel.v
theories/PoolWeakProofs.v
theories/PoolWeakProps.v
theories/WatchThrModel.v
theories/WatchThrProofs.v
theories/WatchThrProps.v
theories/LNodesModel.v
theories/LNodesSpec.v
theories/LNodesProofs.v
theories/LNodesProps.v
theories/KeysModel.v
theories/KeysProofs.v
theories/KeysProps.v
theories/PAllocThreadsProps.v
theories/IdxVecModel.v
theories/IdxVecProps.v
theories/PolyModel.v
theories/PolySpec.v
theories/PolyProofs.v
theories/PolyProps.v
