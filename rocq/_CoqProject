-Q theories Verif
theories/Spec.v
theories/Base.v
theories/SpecProofs.v
theories/BlockedModel.v
theories/BlockedProofs.v
theories/NetCdfModel.v
theories/NetCdfProofs.v
theories/CacheModel.v
theories/CacheProofs.v
theories/LruTrace.v
theories/LevelsModel.v
theories/LevelsProofs.v
theories/CounterProofs.v
theories/BlockedFacts.v
theories/CacheFacts.v
theories/LevelsFacts.v
theories/Prop_Blocks.v
theories/Prop_Cache.v
theories/Prop_Levels.v
theories/DictModel.v
theories/DictProofs.v
theories/ConcModel.v
theories/ConcLocks.v
theories/ConcInv1.v
theories/ConcData.v
theories/DictFacts.v
theories/Prop_Dict.v
theories/ConcInv2.v
theories/ConcInv3.v
theories/ConcInv4.v
theories/ConcInv5.v
theories/ConcLive.v
theories/ConcFacts.v
theories/Prop_Conc.v
theories/MpiMutexModel.v
theories/MpiMutexProofs.v
theories/MpiMutexFacts.v
theories/Prop_MpiMutex.v
theories/SyncModel.v
theories/SyncProofs.v
theories/SyncFacts.v
theories/OnceFacts.v
theories/NumaModel.v
theories/NumaFacts.v
theories/Prop_Threads.v
theories/CoordModel.v
theories/CoordExact.v
theories/CoordFloat.v
theories/CoordFloat2.v
theories/CoordFloat3.v
theories/CoordFacts.v
theories/RangeFacts.v
theories/Prop_Coord.v
theories/ParamModel.v
theories/ParamFacts.v
theories/Prop_Param.v
theories/TypesModel.v
theories/TypesFacts.v
theories/CheckFacts.v
theories/Prop_Types.v
theories/GridModel.v
theories/GridFacts.v
theories/Prop_Grid.v
theories/CommThreadModel.v
theories/CommThreadFacts.v
theories/Prop_CommThread.v
theories/NodeRankModel.v
theories/NodeRankFacts.v
theories/Prop_NodeRank.v
theories/ReplyModel.v
theories/ReplyFacts.v
theories/Prop_Reply.v
theories/WrapModel.v
theories/WrapFacts.v
theories/Prop_Wrap.v
theories/NoopModel.v
theories/NoopFacts.v
theories/Prop_Noop.v
theories/StartupModel.v
theories/StartupFacts.v
theories/Prop_Startup.v
theories/LiveFacts.v
theories/LiveModel.v
theories/LiveInv.v
theories/LiveSettle.v
theories/LiveFinish.v
theories/LiveDict.v
theories/Prop_Live.v
theories/DatatypeModel.v
theories/DatatypeFacts.v
theories/Prop_Datatype.v
theories/CommOrderFacts.v
theories/Prop_CommOrder.v
theories/MapModel.v
theories/MapFacts.v
theories/Prop_Map.v
theories/OpenErrModel.v
theories/OpenErrFacts.v
theories/Prop_OpenErr.v
theories/CloseModel.v
theories/CloseFacts.v
theories/Prop_Close.v
theories/FullConcModel.v
theories/FullConcSim.v
theories/FullConcFacts.v
theories/Prop_FullConc.v
theories/GridsModel.v
theories/GridsFacts.v
theories/Prop_Grids.v
theories/CollModel.v
theories/CollFacts.v
theories/Prop_Coll.v
theories/CountModel.v
theories/CountFacts.v
theories/Prop_Count.v
theories/EndModel.v
theories/EndFacts.v
theories/EndParamFacts.v
theories/Prop_End.v
theories/FortranModel.v
theories/FortranSpec.v
theories/FortranFacts.v
theories/Prop_Fortran.v
theories/FileModel.v
theories/FileSpec.v
theories/FileFacts.v
theories/Prop_File.v
theories/AxisFacts.v
theories/Prop_Axis.v
theories/ContModel.v
theories/ContSpec.v
theories/ContFacts.v
theories/Prop_Cont.v
theories/LedgerModel.v
theories/LedgerSpec.v
theories/LedgerFacts.v
theories/LedgerCalm.v
theories/LedgerOrder.v
theories/Prop_Ledger.v
theories/RaceModel.v
theories/RaceSpec.v
theories/RaceFacts.v
theories/RaceFull.v
theories/Prop_Race.v
theories/LockModel.v
theories/LockSpec.v
theories/LockFacts.v
theories/Prop_Lock.v
theories/RanksModel.v
theories/RanksFacts.v
theories/Prop_Ranks.v
theories/CommModel.v
theories/CommSpec.v
theories/CommFacts.v
theories/Prop_Comm.v
theories/NanFacts.v
theories/Prop_Nan.v
theories/WinModel.v
theories/WinSpec.v
theories/WinFacts.v
theories/Prop_Win.v
theories/FetchModel.v
theories/FetchSpec.v
theories/FetchFacts.v
theories/Prop_Fetch.v
theories/SoleSpec.v
theories/SoleFacts.v
theories/Prop_Sole.v
theories/BufModel.v
theories/BufSpec.v
theories/BufFacts.v
theories/Prop_Buf.v
theories/SerSpec.v
theories/SerFacts.v
theories/Prop_Ser.v
theories/LateModel.v
theories/LateSpec.v
theories/LateFacts.v
theories/Prop_Late.v
theories/SpreadSpec.v
theories/SpreadFacts.v
theories/Prop_Spread.v
theories/SuiteModel.v
theories/SuiteFacts.v
theories/Prop_Suite.v
theories/DealModel.v
theories/DealFacts.v
theories/Prop_Deal.v
theories/NoiseModel.v
theories/NoiseSpec.v
theories/NoiseFacts.v
theories/NoiseGrid.v
theories/NoiseThree.v
theories/NoiseOct.v
theories/Prop_Noise.v
theories/UnitModel.v
theories/UnitFacts.v
theories/UnitNuma.v
theories/UnitComm.v
theories/UnitRest.v
theories/Prop_Unit.v
theories/UnitTypeModel.v
theories/UnitTypeFacts.v
theories/Prop_UnitType.v
theories/InterpolModel.v
theories/InterpolFacts.v
theories/Prop_Interpol.v
theories/ExampleModel.v
theories/ExampleFacts.v
theories/Prop_Example.v
theories/EndRunModel.v
theories/EndRunFacts.v
theories/Prop_EndRun.v
theories/CallersModel.v
theories/CallersFacts.v
theories/Prop_Callers.v
theories/RequestModel.v
theories/RequestFacts.v
theories/Prop_Request.v
theories/FailModel.v
theories/FailFacts.v
theories/Prop_Fail.v
theories/RestartModel.v
theories/RestartSpec.v
theories/RestartFacts.v
theories/Prop_Restart.v
