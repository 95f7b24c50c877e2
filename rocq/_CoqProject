-Q theories Verif
theories/Model/Alloc.v
theories/Model/Base.v
theories/Model/Batches.v
theories/Model/Buf.v
theories/Model/Catalog.v
theories/Model/CloudFiles.v
theories/Model/Codec.v
theories/Model/Config.v
theories/Model/Crash.v
theories/Model/Crc.v
theories/Model/CrcTables.v
theories/Model/Data.v
theories/Model/Engine.v
theories/Model/Event.v
theories/Model/Except.v
theories/Model/Failed.v
theories/Model/Faulty.v
theories/Model/File.v
theories/Model/Gc.v
theories/Model/Json.v
theories/Model/Lex.v
theories/Model/Links.v
theories/Model/Locks.v
theories/Model/Logger.v
theories/Model/Logless.v
theories/Model/Mapping.v
theories/Model/Memtable.v
theories/Model/Merge.v
theories/Model/Names.v
theories/Model/Opening.v
theories/Model/Orders.v
theories/Model/Pack.v
theories/Model/Packed.v
theories/Model/Parse.v
theories/Model/PartIter.v
theories/Model/Random.v
theories/Model/Rbtree.v
theories/Model/Refile.v
theories/Model/S3.v
theories/Model/Scan.v
theories/Model/Service.v
theories/Model/Session.v
theories/Model/Show.v
theories/Model/Source.v
theories/Model/Startup.v
theories/Model/Tiering.v
theories/Model/TornDrops.v
theories/Model/TornOrders.v
theories/Model/Uuid.v
theories/Model/Vfs.v
theories/Model/Wal.v
theories/Model/Whole.v
theories/Model/WholeDrops.v
theories/Model/WholeOrders.v
theories/Model/Workers.v
theories/Model/Writer.v
theories/Proof/AllocL.v
theories/Proof/AllocX.v
theories/Proof/BatchesL.v
theories/Proof/BatchesP.v
theories/Proof/BatchesT.v
theories/Proof/BufL.v
theories/Proof/CatalogB.v
theories/Proof/CatalogE.v
theories/Proof/CatalogK.v
theories/Proof/CatalogO.v
theories/Proof/CatalogP.v
theories/Proof/CatalogS.v
theories/Proof/CatalogT.v
theories/Proof/CatalogX.v
theories/Proof/Cells.v
theories/Proof/CloudFilesH.v
theories/Proof/CloudFilesL.v
theories/Proof/CloudFilesW.v
theories/Proof/CloudFilesX.v
theories/Proof/CodecL.v
theories/Proof/CodecX.v
theories/Proof/ConfigE.v
theories/Proof/ConfigL.v
theories/Proof/CrashD.v
theories/Proof/CrashH.v
theories/Proof/CrashP.v
theories/Proof/CrashT.v
theories/Proof/CrashW.v
theories/Proof/CrashX.v
theories/Proof/CrcL.v
theories/Proof/CrcP.v
theories/Proof/DataL.v
theories/Proof/DirL.v
theories/Proof/DropsL.v
theories/Proof/DropsP.v
theories/Proof/DropsR.v
theories/Proof/DropsT.v
theories/Proof/DropsX.v
theories/Proof/EngineL.v
theories/Proof/EngineP.v
theories/Proof/EngineR.v
theories/Proof/EngineW.v
theories/Proof/EngineX.v
theories/Proof/ExceptL.v
theories/Proof/ExceptM.v
theories/Proof/ExceptT.v
theories/Proof/FailedL.v
theories/Proof/FailedX.v
theories/Proof/FaultyC.v
theories/Proof/FaultyL.v
theories/Proof/FaultyM.v
theories/Proof/FaultyN.v
theories/Proof/FaultyP.v
theories/Proof/FaultyS.v
theories/Proof/FaultyX.v
theories/Proof/Fermat.v
theories/Proof/FileC.v
theories/Proof/FileL.v
theories/Proof/FileP.v
theories/Proof/FileR.v
theories/Proof/FileW.v
theories/Proof/FileX.v
theories/Proof/GrowL.v
theories/Proof/GrowM.v
theories/Proof/GrowS.v
theories/Proof/GrowU.v
theories/Proof/GrowX.v
theories/Proof/JsonCut.v
theories/Proof/JsonL.v
theories/Proof/LexL.v
theories/Proof/LinksL.v
theories/Proof/LinksP.v
theories/Proof/LinksS.v
theories/Proof/LinksX.v
theories/Proof/LocksE.v
theories/Proof/LocksL.v
theories/Proof/LocksT.v
theories/Proof/LocksX.v
theories/Proof/LoggerL.v
theories/Proof/LoggerX.v
theories/Proof/LoglessL.v
theories/Proof/LoglessP.v
theories/Proof/LoglessT.v
theories/Proof/LoglessX.v
theories/Proof/MappingL.v
theories/Proof/MappingP.v
theories/Proof/MappingX.v
theories/Proof/MemtableE.v
theories/Proof/MemtableL.v
theories/Proof/MemtableL2.v
theories/Proof/MemtableM.v
theories/Proof/MemtableP.v
theories/Proof/MemtableX.v
theories/Proof/MergeL.v
theories/Proof/NamesL.v
theories/Proof/OpeningC.v
theories/Proof/OpeningI.v
theories/Proof/OpeningK.v
theories/Proof/OpeningL.v
theories/Proof/OpeningW.v
theories/Proof/OpeningX.v
theories/Proof/OrderL.v
theories/Proof/OrdersH.v
theories/Proof/OrdersL.v
theories/Proof/OrdersP.v
theories/Proof/OrdersT.v
theories/Proof/OrdersX.v
theories/Proof/PackL.v
theories/Proof/PackX.v
theories/Proof/PackedL.v
theories/Proof/PackedX.v
theories/Proof/ParseG.v
theories/Proof/ParseH.v
theories/Proof/ParseK.v
theories/Proof/ParseL.v
theories/Proof/ParseR.v
theories/Proof/ParseS.v
theories/Proof/ParseT.v
theories/Proof/ParseU.v
theories/Proof/ParseX.v
theories/Proof/PartIterL.v
theories/Proof/RandomL.v
theories/Proof/RandomP.v
theories/Proof/RandomX.v
theories/Proof/RbtreeL.v
theories/Proof/RefileL.v
theories/Proof/RefillB.v
theories/Proof/RefillD.v
theories/Proof/RefillH.v
theories/Proof/RefillP.v
theories/Proof/RefillS.v
theories/Proof/RefillT.v
theories/Proof/RefillW.v
theories/Proof/RefillX.v
theories/Proof/RefillY.v
theories/Proof/ResumeL.v
theories/Proof/S3L.v
theories/Proof/ScanL.v
theories/Proof/ScanX.v
theories/Proof/ServiceL.v
theories/Proof/ServiceT.v
theories/Proof/ServiceX.v
theories/Proof/SessionC.v
theories/Proof/SessionE.v
theories/Proof/SessionL.v
theories/Proof/SessionP.v
theories/Proof/SessionT.v
theories/Proof/ShowL.v
theories/Proof/ShowT.v
theories/Proof/ShowX.v
theories/Proof/SourceL.v
theories/Proof/TieringB.v
theories/Proof/TieringC.v
theories/Proof/TieringL.v
theories/Proof/TieringO.v
theories/Proof/TieringT.v
theories/Proof/TieringX.v
theories/Proof/TornDropsL.v
theories/Proof/TornDropsP.v
theories/Proof/TornDropsT.v
theories/Proof/TornDropsX.v
theories/Proof/TornOrdersT.v
theories/Proof/TornOrdersX.v
theories/Proof/UuidL.v
theories/Proof/VfsL.v
theories/Proof/VfsX.v
theories/Proof/WalH.v
theories/Proof/WalL.v
theories/Proof/WalP.v
theories/Proof/WalQ.v
theories/Proof/WalR.v
theories/Proof/WalX.v
theories/Proof/WholeD.v
theories/Proof/WholeDropsL.v
theories/Proof/WholeDropsP.v
theories/Proof/WholeDropsT.v
theories/Proof/WholeDropsX.v
theories/Proof/WholeL.v
theories/Proof/WholeOrdersG.v
theories/Proof/WholeOrdersP.v
theories/Proof/WholeOrdersT.v
theories/Proof/WholeOrdersX.v
theories/Proof/WholeP.v
theories/Proof/WholeS.v
theories/Proof/WholeT.v
theories/Proof/WholeX.v
theories/Proof/WorkersL.v
theories/Proof/WorkersT.v
theories/Proof/WorkersX.v
theories/Proof/WriterL.v
theories/Props/PAlloc.v
theories/Props/PBatches.v
theories/Props/PCatalog.v
theories/Props/PCloudFiles.v
theories/Props/PCodec.v
theories/Props/PConfig.v
theories/Props/PCrash.v
theories/Props/PCrc.v
theories/Props/PDrops.v
theories/Props/PEngine.v
theories/Props/PExcept.v
theories/Props/PFailed.v
theories/Props/PFaulty.v
theories/Props/PFile.v
theories/Props/PFlow.v
theories/Props/PGrow.v
theories/Props/PLinks.v
theories/Props/PLocks.v
theories/Props/PLogged.v
theories/Props/PLogless.v
theories/Props/PMapping.v
theories/Props/PMemtable.v
theories/Props/PNames.v
theories/Props/POpening.v
theories/Props/POrders.v
theories/Props/PPack.v
theories/Props/PPacked.v
theories/Props/PParse.v
theories/Props/PRandom.v
theories/Props/PRefile.v
theories/Props/PRefill.v
theories/Props/PS3.v
theories/Props/PScan.v
theories/Props/PService.v
theories/Props/PSession.v
theories/Props/PShow.v
theories/Props/PThreads.v
theories/Props/PTiering.v
theories/Props/PTornDrops.v
theories/Props/PTornOrders.v
theories/Props/PUndo.v
theories/Props/PVfs.v
theories/Props/PWal.v
theories/Props/PWhole.v
theories/Props/PWholeDrops.v
theories/Props/PWholeOrders.v
theories/Spec/Alloc.v
theories/Spec/Batches.v
theories/Spec/Buffers.v
theories/Spec/Catalog.v
theories/Spec/Checksum.v
theories/Spec/CloudFiles.v
theories/Spec/Codecs.v
theories/Spec/Command.v
theories/Spec/Crash.v
theories/Spec/Drops.v
theories/Spec/Engine.v
theories/Spec/Except.v
theories/Spec/Faulty.v
theories/Spec/FileLimits.v
theories/Spec/Files.v
theories/Spec/Grow.v
theories/Spec/JsonText.v
theories/Spec/Layout.v
theories/Spec/Links.v
theories/Spec/Locks.v
theories/Spec/Log.v
theories/Spec/Logged.v
theories/Spec/Logless.v
theories/Spec/Merged.v
theories/Spec/Names.v
theories/Spec/Opening.v
theories/Spec/Order.v
theories/Spec/Orders.v
theories/Spec/Packed.v
theories/Spec/Packing.v
theories/Spec/Permitted.v
theories/Spec/Random.v
theories/Spec/Refile.v
theories/Spec/Refill.v
theories/Spec/Regions.v
theories/Spec/Resume.v
theories/Spec/S3.v
theories/Spec/Sealed.v
theories/Spec/Service.v
theories/Spec/Session.v
theories/Spec/Settings.v
theories/Spec/Shown.v
theories/Spec/Threads.v
theories/Spec/Tiering.v
theories/Spec/TornDrops.v
theories/Spec/TornOrders.v
theories/Spec/Units.v
theories/Spec/UuidText.v
theories/Spec/Value.v
theories/Spec/View.v
theories/Spec/Whole.v
theories/Spec/WholeDrops.v
theories/Spec/WholeOrders.v
theories/Spec/Written.v
