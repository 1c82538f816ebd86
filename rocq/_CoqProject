-Q theories Verif
theories/AesInverse.v
theories/AesKeys.v
theories/AesModel.v
theories/AesProofs.v
theories/AesRounds.v
theories/AesSpec.v
theories/AesTables.v
theories/AppendModel.v
theories/AppendProps.v
theories/AsyncModel.v
theories/AsyncProofs.v
theories/AsyncProps.v
theories/BabyConcModel.v
theories/BabyConcProofs.v
theories/BabyConcProps.v
theories/BabyConcSpec.v
theories/BabyPages.v
theories/BabyProps.v
theories/BtreeHist.v
theories/BtreeInv.v
theories/BtreeIter.v
theories/BtreeMerge.v
theories/BtreeModel.v
theories/BtreeOps.v
theories/BtreeRun.v
theories/BtreeSort.v
theories/BtreeTree.v
theories/BtreeUp.v
theories/Bytes.v
theories/BytesOrder.v
theories/CacheConcModel.v
theories/CacheConcProofs.v
theories/CacheConcProps.v
theories/CacheModel.v
theories/CacheProofs.v
theories/CacheProps.v
theories/CodecModel.v
theories/CodecProofs.v
theories/CodecProps.v
theories/ComparatorModel.v
theories/ComparatorProofs.v
theories/ComparatorProps.v
theories/CompressModel.v
theories/CompressProofs.v
theories/CompressProps.v
theories/CompressSpec.v
theories/DbmModel.v
theories/DbmProps.v
theories/FbpModel.v
theories/FbpProofs.v
theories/FbpProps.v
theories/FileModel.v
theories/FioModel.v
theories/FioPosProofs.v
theories/FioProofs.v
theories/FioProps.v
theories/FioSpec.v
theories/FlatModel.v
theories/FlatProofs.v
theories/FlatProps.v
theories/FlatTotal.v
theories/HashDbAppend.v
theories/HashDbInPlace.v
theories/HashDbLayout.v
theories/HashDbModel.v
theories/HashDbProofs.v
theories/HashDbProps.v
theories/HashIterModel.v
theories/HashIterProofs.v
theories/HashIterProps.v
theories/HashMetaModel.v
theories/HashMetaProofs.v
theories/HashMetaProps.v
theories/HashMutexModel.v
theories/HashMutexProps.v
theories/HashRebuildModel.v
theories/HashRebuildProofs.v
theories/HashRebuildProps.v
theories/HashRecModel.v
theories/HashRecProofs.v
theories/HashRecProps.v
theories/HashRestoreModel.v
theories/HashRestoreProofs.v
theories/HashRestoreProps.v
theories/HashUtilModel.v
theories/HashUtilProofs.v
theories/HashUtilProps.v
theories/HashUtilSpec.v
theories/IndexModel.v
theories/IndexProofs.v
theories/IndexProps.v
theories/IndexSpec.v
theories/LinkedModel.v
theories/LinkedProofs.v
theories/LinkedProps.v
theories/LruModel.v
theories/LruProps.v
theories/MapSpec.v
theories/MqModel.v
theories/MqProofs.v
theories/MqProps.v
theories/OmapFacts.v
theories/OmapHist.v
theories/OmapSpec.v
theories/PathModel.v
theories/PathProofs.v
theories/PathProps.v
theories/PathSpec.v
theories/PcacheModel.v
theories/PcachePages.v
theories/PcacheProofs.v
theories/PcacheProps.v
theories/PolyAdminProps.v
theories/PolyModel.v
theories/PolyProofs.v
theories/PolyProps.v
theories/PrimeModel.v
theories/PrimeProps.v
theories/SearchModel.v
theories/SearchProofs.v
theories/SearchProps.v
theories/ShardIter.v
theories/ShardModel.v
theories/ShardProofs.v
theories/ShardProps.v
theories/ShardSpec.v
theories/SignalModel.v
theories/SignalProps.v
theories/SkipDb.v
theories/SkipIter.v
theories/SkipLayout.v
theories/SkipMerge.v
theories/SkipMetaModel.v
theories/SkipMetaProofs.v
theories/SkipMetaProps.v
theories/SkipMetaScan.v
theories/SkipMetaSpec.v
theories/SkipMetaSteps.v
theories/SkipModel.v
theories/SkipProps.v
theories/SkipSearch.v
theories/SkipSync.v
theories/SkipWrite.v
theories/SpinModel.v
theories/SpinProps.v
theories/Stamps.v
theories/StatusModel.v
theories/StatusProps.v
theories/StdFileModel.v
theories/StdFileProps.v
theories/StdModel.v
theories/StdProofs.v
theories/StdProps.v
theories/StdSpec.v
theories/StrSearchModel.v
theories/StrSearchProofs.v
theories/StrSearchProps.v
theories/StrSerialModel.v
theories/StrSerialProofs.v
theories/StrSerialProps.v
theories/StrUtilModel.v
theories/StrUtilProps.v
theories/TaskModel.v
theories/TaskProps.v
theories/TextCodecModel.v
theories/TextCodecProofs.v
theories/TextCodecProps.v
theories/TimeCal.v
theories/TimeFrac.v
theories/TimeModel.v
theories/TimeProofs.v
theories/TimeProps.v
theories/TinyConcModel.v
theories/TinyConcProofs.v
theories/TinyConcProps.v
theories/TinyConcSteps.v
theories/TinyModel.v
theories/TinyOps.v
theories/TinyProofs.v
theories/TinyProps.v
theories/TopkModel.v
theories/TopkProofs.v
theories/TopkProps.v
theories/TreeClearProps.v
theories/TreeFileModel.v
theories/TreeFileProofs.v
theories/TreeFileProps.v
theories/TreePageModel.v
theories/TreePageProps.v
theories/TreeProps.v
theories/TreeReopen.v
theories/TreeRunHeap.v
theories/TreeRunModel.v
theories/TreeRunProofs.v
theories/TreeRunProps.v
theories/UlogModel.v
theories/UlogProofs.v
theories/UlogProps.v
