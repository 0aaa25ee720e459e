-Q theories Verif
theories/Base.v
theories/DType.v
theories/Path.v
theories/SpecTree.v
theories/Schema.v
theories/PathFacts.v
theories/SchemaInv.v
theories/SchemaRefine.v
theories/NodePath.v
theories/SchemaMore.v
theories/SchemaLayout.v
theories/SchemaPath.v
theories/SchemaLaws.v
theories/P_Schema.v
theories/Mem.v
theories/MemFacts.v
theories/Node.v
theories/SpecNode.v
theories/NodeFacts.v
theories/NodeCompact.v
theories/NodeSet.v
theories/NodeSerial.v
theories/NodeBridge.v
theories/NodeLaws.v
theories/P_Node.v
theories/NodeEndian.v
theories/NodeUpdate.v
theories/NodeMerge.v
theories/NodeUpdateLaws.v
theories/NodeSetArray.v
theories/P_NodeOps.v
theories/Utils.v
theories/UtilsFacts.v
theories/P_Utils.v
theories/Codec.v
theories/CodecFacts.v
theories/P_Codec.v
theories/O2M.v
theories/O2MFacts.v
theories/O2MCompact.v
theories/P_O2M.v
theories/NDIndex.v
theories/NDIndexFacts.v
theories/P_ND.v
theories/NodeIter.v
theories/NodeIterFacts.v
theories/P_NodeIter.v
theories/NodeAlloc.v
theories/McArray.v
theories/McArrayFacts.v
theories/P_McArray.v
theories/Gilbert.v
theories/GilbertFacts.v
theories/Gilbert3Facts.v
theories/P_Gilbert.v
theories/Contig.v
theories/ContigFacts.v
theories/P_Contig.v
theories/Number.v
theories/NumberFacts.v
theories/NodeDiff.v
theories/DiffFacts.v
theories/DiffTree.v
theories/DiffMore.v
theories/P_Diff.v
theories/ArrayOps.v
theories/ArrayOpsFacts.v
theories/P_ArrayOps.v
theories/NodeLinks.v
theories/LinksFacts.v
theories/LinksCut.v
theories/LinksOps.v
theories/P_Links.v
theories/Json.v
theories/JsonSpec.v
theories/JsonFacts.v
theories/JsonRead.v
theories/JsonSchema.v
theories/P_Json.v
theories/Save.v
theories/SaveFacts.v
theories/P_Save.v
theories/NodeHist.v
theories/HistSpec.v
theories/HistFacts.v
theories/HistRun.v
theories/P_Hist.v
theories/B64Json.v
theories/B64Facts.v
theories/P_B64.v
theories/ValueJson.v
theories/FloatText.v
theories/ValueFacts.v
theories/ValueText.v
theories/ValueBack.v
theories/FloatFacts.v
theories/P_ValueJson.v
theories/PureJson.v
theories/PureText.v
theories/P_Pure.v
theories/MatSet.v
theories/MatSetFacts.v
theories/P_MatSet.v
theories/Silo.v
theories/SiloFacts.v
theories/SpecSetFacts.v
theories/P_Silo.v
theories/MeshConv.v
theories/MeshConvFacts.v
theories/P_MeshConv.v
theories/MeshElem.v
theories/MeshElemFacts.v
theories/P_MeshElem.v
theories/MeshRenum.v
theories/MeshRenumFacts.v
theories/P_MeshRenum.v
theories/KdTree.v
theories/KdTreeFacts.v
theories/P_KdTree.v
theories/PointMerge.v
theories/PointMergeFacts.v
theories/P_PointMerge.v
theories/AdjSet.v
theories/AdjSetFacts.v
theories/P_AdjSet.v
theories/Mpi.v
theories/MpiFacts.v
theories/P_Mpi.v
theories/MpiColl.v
theories/MpiCollFacts.v
theories/P_MpiColl.v
theories/MpiNet.v
theories/MpiNetFacts.v
theories/P_MpiNet.v
theories/MpiNetMore.v
theories/MpiDist.v
theories/MpiDistFacts.v
theories/P_MpiDist.v
theories/Csv.v
theories/CsvFacts.v
theories/CsvNum.v
theories/CsvMany.v
theories/P_Csv.v
theories/RoundFacts.v
theories/RoundText.v
theories/NumConv.v
theories/NumConvFacts.v
theories/NumConvMem.v
theories/NumConvText.v
theories/P_NumConv.v
theories/GText.v
theories/GRead.v
theories/CsvFloat.v
theories/FloatOps.v
theories/RjRead.v
theories/RjFloat.v
theories/RjText.v
theories/JFloat.v
theories/MeshIO.v
theories/MeshIOSpec.v
theories/MeshIOFacts.v
theories/MeshIORounds.v
theories/MeshIONames.v
theories/MeshIOTrip.v
theories/MeshIOMore.v
theories/P_MeshIO.v
theories/IOHandle.v
theories/IOHandleSpec.v
theories/IOHandleFacts.v
theories/IOHandleMore.v
theories/P_IOHandle.v
theories/Partition.v
theories/PartitionSpec.v
theories/PartitionFacts.v
theories/PartitionInit.v
theories/PartitionCount.v
theories/PartitionField.v
theories/P_Partition.v
theories/Hdf5.v
theories/Hdf5Spec.v
theories/Hdf5Facts.v
theories/Hdf5Hist.v
theories/Hdf5Slab.v
theories/P_Hdf5.v
theories/TopoMeta.v
theories/TopoMetaSpec.v
theories/TopoMetaFacts.v
theories/TopoMetaBack.v
theories/TopoMetaGen.v
theories/TopoMetaLines.v
theories/TopoMetaSolid.v
theories/TopoMetaHash.v
theories/P_TopoMeta.v
theories/MeshFlat.v
theories/MeshFlatSpec.v
theories/MeshFlatFacts.v
theories/MeshFlatSingle.v
theories/MeshFlatRun.v
theories/MeshFlatAlloc.v
theories/MeshFlatMain.v
theories/MeshFlatCols.v
theories/P_MeshFlat.v
theories/MeshFlatTotal.v
theories/MeshVerify.v
theories/MeshVerifySpec.v
theories/MeshVerifyFacts.v
theories/MeshVerifyParts.v
theories/MeshVerifySets.v
theories/MeshVerifyDomain.v
theories/P_MeshVerify.v
theories/MeshIndex.v
theories/MeshIndexSpec.v
theories/MeshIndexFacts.v
theories/MeshIndexMake.v
theories/MeshIndexWhole.v
theories/P_MeshIndex.v
theories/MeshIndexMany.v
theories/RelayIO.v
theories/RelayIOSpec.v
theories/RelayIOFacts.v
theories/P_RelayIO.v
theories/SaveCrash.v
theories/SaveCrashFacts.v
theories/RelayIOMore.v
theories/TableVerify.v
theories/TableVerifySpec.v
theories/TableVerifyFacts.v
theories/P_TableVerify.v
theories/Protocol.v
theories/ProtocolSpec.v
theories/ProtocolFacts.v
theories/P_Protocol.v
theories/ProtocolMpi.v
theories/ProtocolMpiFacts.v
theories/RankMap.v
theories/RankMapSpec.v
theories/RankMapFacts.v
theories/P_RankMap.v
theories/MeshIndexMpi.v
theories/MeshIndexMpiSpec.v
theories/MeshIndexMpiFacts.v
theories/P_MeshIndexMpi.v
