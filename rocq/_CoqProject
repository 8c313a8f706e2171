-Q theories Verif
theories/Base.v
theories/OrderLib.v
theories/JsonModel.v
theories/JsonSpec.v
theories/JsonProofs.v
theories/JsonOrder.v
theories/JsonProps.v
theories/RbModel.v
theories/RbProofs.v
theories/TreeModel.v
theories/TreeSpec.v
theories/TreeProofs.v
theories/TreeProps.v
theories/PartModel.v
theories/PartProofs.v
theories/ReplayModel.v
theories/ReplayProofs.v
theories/PartProps.v
theories/HashModel.v
theories/HashSpec.v
theories/HashProofs.v
theories/HashProps.v
theories/UnionModel.v
theories/UnionProofs.v
theories/UnionProps.v
theories/ValueModel.v
theories/ValueProps.v
theories/SetModel.v
theories/SetProofs.v
theories/SetProps.v
theories/AggModel.v
theories/AggSpec.v
theories/AggFacts.v
theories/AggProofs.v
theories/AggInv.v
theories/AggMerge.v
theories/AggProps.v
theories/CrcTables.v
theories/CrcModel.v
theories/CrcProofs.v
theories/WalModel.v
theories/WalSpec.v
theories/WalRecord.v
theories/WalFiles.v
theories/WalLog.v
theories/WalProps.v
theories/CrcProps.v
theories/LockModel.v
theories/LockSpec.v
theories/LockProofs.v
theories/LockProps.v
theories/CodecModel.v
theories/CodecSpec.v
theories/CodecProps.v
theories/Utf8Model.v
theories/Utf8Spec.v
theories/Utf8Proofs.v
theories/Utf8Props.v
theories/DecLib.v
theories/TimeSpec.v
theories/TimeModel.v
theories/TimeProofs.v
theories/TimeProps.v
theories/TimeProps2.v
theories/TimeProps3.v
theories/JsonTextModel.v
theories/JsonTextSpec.v
theories/JsonTextProofs.v
theories/JsonTextProps.v
theories/RowModel.v
theories/RowSpec.v
theories/RowProofs.v
theories/RowKeys.v
theories/RowMap.v
theories/RowProps.v
theories/HtModel.v
theories/HtSpec.v
theories/HtProofs.v
theories/HtProps.v
theories/AuthModel.v
theories/AuthSpec.v
theories/AuthProps.v
theories/RefreshModel.v
theories/RefreshSpec.v
theories/RefreshProps.v
theories/IdModel.v
theories/IdProps.v
theories/SeqModel.v
theories/SeqProps.v
theories/HeapModel.v
theories/HeapSpec.v
theories/HeapProofs.v
theories/HeapProps.v
theories/TxModel.v
theories/TxSpec.v
theories/TxProofs.v
theories/TxProofs2.v
theories/TxProofs3.v
theories/TxProofs4.v
theories/TxProofs5.v
theories/TxProofs6.v
theories/TxProofs7.v
theories/TxProps.v
theories/DdlModel.v
theories/DdlSpec.v
theories/DdlProofs.v
theories/DdlProofs2.v
theories/DdlProofs3.v
theories/DdlProofs4.v
theories/DdlProofs5.v
theories/DdlProps.v
theories/CatModel.v
theories/CatSpec.v
theories/CatProofs.v
theories/CatProps.v
theories/CatFileModel.v
theories/CatFileProps.v
theories/ReplModel.v
theories/ReplSpec.v
theories/ReplProofs.v
theories/ReplProofs2.v
theories/ReplProofs3.v
theories/ReplProps.v
theories/DurModel.v
theories/DurSpec.v
theories/DurProofs.v
theories/DurProofs2.v
theories/DurProofs3.v
theories/DurProofs4.v
theories/DurProofs5.v
theories/DurProofs6.v
theories/DurProps.v
theories/IdxModel.v
theories/IdxSpec.v
theories/IdxProofs.v
theories/IdxProofs2.v
theories/IdxProps.v
theories/ShadowModel.v
theories/ShadowSpec.v
theories/ShadowProofs.v
theories/ShadowProofs2.v
theories/ShadowProps.v
theories/ScanModel.v
theories/ScanSpec.v
theories/ScanProofs.v
theories/ScanProofs2.v
theories/ScanEx.v
theories/ScanProps.v
theories/JupdModel.v
theories/JupdSpec.v
theories/JupdProofs.v
theories/JupdProofs2.v
theories/JupdProps.v
theories/ExprModel.v
theories/ExprSpec.v
theories/ExprProofs.v
theories/ExprProps.v
theories/CompModel.v
theories/CompSpec.v
theories/CompProofs.v
theories/CompMain.v
theories/CompProps.v
theories/BusModel.v
theories/BusSpec.v
theories/BusProofs.v
theories/BusMain.v
theories/BusProps.v
theories/TimerModel.v
theories/TimerSpec.v
theories/TimerProps.v
theories/HttpModel.v
theories/HttpSpec.v
theories/HttpProofs.v
theories/HttpProps.v
theories/InsModel.v
theories/InsSpec.v
theories/InsProofs.v
theories/InsProps.v
theories/UpsModel.v
theories/UpsSpec.v
theories/UpsProofs.v
theories/UpsHashModel.v
theories/UpsProps.v
theories/SelModel.v
theories/SelSpec.v
theories/SelProofs.v
theories/SelAnswer.v
theories/SelProps.v
theories/LexModel.v
theories/LexSpec.v
theories/LexProofs.v
theories/LexProps.v
theories/OutModel.v
theories/OutSpec.v
theories/OutProofs.v
theories/OutProps.v
theories/BakModel.v
theories/BakSpec.v
theories/BakProofs.v
theories/BakProps.v
theories/UriModel.v
theories/UriSpec.v
theories/UriProofs.v
theories/UriProps.v
theories/SepModel.v
theories/SepSpec.v
theories/SepProofs.v
theories/SepProps.v
theories/JobModel.v
theories/JobSpec.v
theories/JobProofs.v
theories/JobProps.v
