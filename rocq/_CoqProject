-Q theories Verif
theories/Prelude.v
theories/Spec.v
theories/Bits.v
theories/Node.v
theories/Codec.v
theories/Ptree.v
theories/PtreeFacts.v
theories/CodecFacts.v
theories/ProofFacts.v
theories/VerifyFacts.v
theories/Tree.v
theories/TreeFacts.v
theories/Bridge.v
theories/Blake2b.v
theories/Vectors.v
theories/Properties_Proof.v
theories/Store.v
theories/StoreFacts.v
theories/CommitFacts.v
theories/HistFacts.v
theories/RecoverFacts.v
theories/Iter.v
theories/IterFacts.v
theories/SpecDb.v
theories/Db.v
theories/Exec.v
theories/DbFacts.v
theories/Sim.v
theories/ApiFacts.v
theories/Demo.v
theories/Properties_Db.v
theories/Properties_Hist.v
theories/Properties_Fail.v
theories/FaultFacts.v
theories/Properties_Fault.v
theories/Limits.v
theories/Rollover.v
theories/Properties_Limits.v
theories/Properties_Reopen.v
theories/Names.v
theories/Properties_Names.v
theories/Path.v
theories/Properties_Path.v
theories/Evict.v
theories/Properties_Evict.v
theories/Properties_Open.v
theories/Io.v
theories/Properties_Io.v
theories/Scan.v
theories/Properties_Scan.v
theories/Proc.v
theories/Properties_Proc.v
theories/Corrupt.v
theories/Properties_Corrupt.v
theories/Conc.v
theories/ConcFacts.v
theories/Properties_Conc.v
theories/Race.v
theories/Properties_Race.v
theories/Heap.v
theories/HeapFacts.v
theories/HeapOps.v
theories/HeapDb.v
theories/HeapSim.v
theories/HeapIter.v
theories/Properties_Heap.v
theories/ReadFault.v
theories/Properties_Read.v
theories/Rfc7693.v
theories/HashFacts.v
theories/Properties_Hash.v
theories/ReadIter.v
theories/Properties_ReadIter.v
theories/Properties_Lost.v
theories/Sessions.v
theories/Properties_Sessions.v
theories/ConcIter.v
theories/ConcIterFacts.v
theories/Properties_ConcIter.v
theories/Khash.v
theories/KhashFacts.v
theories/Properties_Khash.v
theories/Power.v
theories/Properties_Power.v
theories/Destroy.v
theories/Properties_Destroy.v
theories/Handles.v
theories/Properties_Handles.v
theories/Cli.v
theories/CliSpec.v
theories/Properties_Cli.v
theories/Alloc.v
theories/ProofMem.v
theories/Properties_ProofMem.v
theories/Resources.v
theories/Properties_Resources.v
theories/Growth.v
theories/Properties_Growth.v
theories/Long.v
theories/Properties_Long.v
theories/Local.v
theories/Properties_Local.v
theories/Properties_Threads.v
theories/Backup.v
theories/Properties_Backup.v
theories/Properties_Append.v
theories/Failures.v
theories/Properties_Failures.v
theories/Slab.v
theories/SlabFacts.v
theories/Properties_Slab.v
theories/Blind.v
theories/Properties_Blind.v
theories/DestroyPath.v
theories/Properties_DestroyPath.v
theories/Audit.v
