-Q theories Verif
theories/Base.v
theories/BaseProofs.v
theories/MemMapSpec.v
theories/SkipList.v
theories/SkipListProofs.v
theories/AMap.v
theories/MemMapProofs.v
theories/MemMapMore.v
theories/P_MemMap.v
theories/Types.v
theories/Stream.v
theories/Reader.v
theories/FormatSpec.v
theories/FormatUB.v
theories/ReaderProofs.v
theories/ReaderProofs2.v
theories/ReaderProofs3.v
theories/ReaderMore.v
theories/Writer.v
theories/CanonSpec.v
theories/ReaderProps.v
theories/P_Reader.v
theories/Compare.v
theories/Predicate.v
theories/FloatQ.v
theories/PredSpec.v
theories/PredProofs.v
theories/P_Pred.v
theories/FloatSpec.v
theories/FloatProofs.v
theories/P_Float.v
theories/Query.v
theories/QuerySpec.v
theories/QueryProofs.v
theories/QueryProofs2.v
theories/P_Query.v
theories/Order.v
theories/OrderSpec.v
theories/OrderProofs.v
theories/Flyweight.v
theories/FlyweightSpec.v
theories/FlyweightProofs.v
theories/P_Objects.v
theories/CHeap.v
theories/CHeapProofs.v
theories/CApi.v
theories/CApiSpec.v
theories/CApiProofs.v
theories/CApiProofs2.v
theories/CApiProofs3.v
theories/CApiProofs4.v
theories/P_CApi.v
theories/Lisp.v
theories/LispSpec.v
theories/LispProofs.v
theories/LispProofs2.v
theories/P_Lisp.v
theories/LispQuerySpec.v
theories/LispQueryProofs.v
theories/P_LispQuery.v
theories/OpenFile.v
theories/P_Open.v
theories/Dec.v
theories/DecProofs.v
theories/PrintPred.v
theories/PrintSpec.v
theories/PrintProofs.v
theories/P_Print.v
theories/Instr.v
theories/InstrRun.v
theories/InstrSpec.v
theories/InstrConc.v
theories/InstrFloat.v
theories/InstrText.v
theories/InstrTable.v
theories/InstrProofs.v
theories/InstrEnd.v
theories/InstrReq.v
theories/InstrPar.v
theories/InstrParProofs.v
theories/InstrIds.v
theories/InstrIdsProofs.v
theories/InstrLine.v
theories/P_Instr.v
theories/Concur.v
theories/ConcurSpec.v
theories/ConcurReadProofs.v
theories/ConcurProofs.v
theories/ConcurProofs2.v
theories/ConcurProofs3.v
theories/P_Concur.v
theories/Archive.v
theories/ArchiveSpec.v
theories/ArchiveProofs.v
theories/ArchiveProofs2.v
theories/ArchiveProofs3.v
theories/P_Archive.v
theories/Handshake.v
theories/HandshakeSpec.v
theories/HandshakeProofs.v
theories/HandshakeProofs2.v
theories/HandshakeProofs3.v
theories/P_Handshake.v
theories/Collect.v
theories/CollectSpec.v
theories/CollectProofs.v
theories/P_Collect.v
theories/Splice.v
theories/SpliceSpec.v
theories/SpliceTrace.v
theories/SpliceProofs1.v
theories/SpliceProofs2.v
theories/SpliceProofs3.v
theories/SpliceProofs4.v
theories/SpliceProofs5.v
theories/SpliceProofs6.v
theories/SpliceProofs7.v
theories/SpliceProofs8.v
theories/SpliceProofs9.v
theories/P_Splice.v
theories/TypeText.v
theories/TypeTextSpec.v
theories/TypeTextProofs.v
theories/P_TypeText.v
theories/Ledger.v
theories/LedgerSpec.v
theories/LedgerProofs.v
theories/LedgerProofs2.v
theories/LedgerProofs3.v
theories/LedgerUnique.v
theories/P_Ledger.v
theories/Owned.v
theories/OwnedSpec.v
theories/OwnedProofs.v
theories/OwnedProofs2.v
theories/P_Owned.v
theories/LispObj.v
theories/LispObjSpec.v
theories/LispObjProofs.v
theories/LispObjProofs2.v
theories/LispObjProofs3.v
theories/P_LispObj.v
theories/Ffi.v
theories/FfiSpec.v
theories/FfiProofs.v
theories/FfiProofs2.v
theories/FfiProofs3.v
theories/P_Ffi.v
theories/FfiText.v
theories/FfiTextSpec.v
theories/FfiTextProofs.v
theories/FfiTextProofs2.v
theories/FfiTextProofs3.v
theories/P_FfiText.v
theories/SetupSpec.v
theories/SetupProofs.v
theories/SetupProofs2.v
theories/SetupProofs3.v
theories/P_Setup.v
theories/LispMem.v
theories/LispMemSpec.v
theories/LispMemProofs.v
theories/LispMemProofs2.v
theories/P_LispMem.v
theories/EndSpec.v
theories/EndProofs.v
theories/EndProofs2.v
theories/EndProofs3.v
theories/P_End.v
theories/InstrMem.v
theories/InstrMemSpec.v
theories/InstrMemProofs.v
theories/P_InstrMem.v
theories/CRead.v
theories/Emit.v
theories/EmitSpec.v
theories/EmitProofs.v
theories/EmitProofs2.v
theories/P_Emit.v
theories/Vars.v
theories/VarsSpec.v
theories/VarsProofs.v
theories/P_Vars.v
theories/ConcQuery.v
theories/ConcQuerySpec.v
theories/ConcQueryProofs.v
theories/ConcQueryProofs2.v
theories/P_ConcQuery.v
theories/SexpDb.v
theories/SexpDbSpec.v
theories/SexpDbProofs.v
theories/P_SexpDb.v
theories/Fork.v
theories/ForkSpec.v
theories/ForkProofs.v
theories/ForkProofs2.v
theories/ForkProofs3.v
theories/P_Fork.v
theories/InstrSize.v
theories/InstrSizeSpec.v
theories/InstrSizeProofs.v
theories/P_InstrSize.v
theories/Project.v
theories/ProjectSpec.v
theories/ProjectProofs.v
theories/P_Project.v
theories/SexpOpen.v
theories/P_SexpOpen.v
theories/Uninstr.v
theories/UninstrProofs.v
theories/P_Uninstr.v
theories/Dest.v
theories/P_Dest.v
theories/Signal.v
theories/SignalProofs.v
theories/P_Signal.v
theories/DocSpec.v
theories/P_Doc.v
theories/CLStore.v
theories/CLStoreSpec.v
theories/CLStoreProofs.v
theories/P_CLStore.v
theories/VaArg.v
theories/VaSpec.v
theories/VaProofs.v
theories/P_VaArg.v
theories/TransUnit.v
theories/TransUnitSpec.v
theories/TransUnitProofs1.v
theories/TransUnitProofs2.v
theories/P_TransUnit.v
theories/Names.v
theories/NamesSpec.v
theories/NamesProofs.v
theories/P_Names.v
theories/Startup.v
theories/StartupSpec.v
theories/StartupProofs.v
theories/P_Startup.v
theories/CText.v
theories/CParse.v
theories/CSem.v
theories/CTextSpec.v
theories/CTextProofs.v
theories/CTextRuns.v
theories/CTextEnd.v
theories/P_CText.v
theories/SetupRead.v
theories/SetupSem.v
theories/SetupStart.v
theories/SetupCode.v
theories/SetupRuns.v
theories/P_SetupCode.v
theories/SetupNames.v
theories/SetupNamesProofs.v
theories/P_SetupNames.v
theories/Jump.v
theories/JumpProofs.v
theories/P_Jump.v
theories/Need.v
theories/NeedProofs.v
theories/P_Need.v
theories/Ilp32.v
theories/Ilp32Proofs.v
theories/P_Ilp32.v
theories/Full.v
theories/FullProofs.v
theories/P_Full.v
theories/CharSign.v
theories/CharSignProofs.v
theories/P_CharSign.v
theories/Spelling.v
theories/SpellingProofs.v
theories/P_Spelling.v
theories/Cost.v
theories/CostProofs.v
theories/P_Cost.v
theories/CostRead.v
theories/CostReadProofs.v
theories/Copies.v
theories/CopiesProofs.v
theories/CopiesSpec.v
theories/CopiesSpecProofs.v
theories/P_Copies.v
