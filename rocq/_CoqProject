-Q theories Verif
theories/AioLiveProps.v
theories/AioXferModel.v
theories/AioXferProofs.v
theories/AioXferProps.v
theories/AioXferSpec.v
theories/AllocConcModel.v
theories/AllocConcProofs.v
theories/AllocInv.v
theories/AllocMain.v
theories/AllocModel.v
theories/AllocProofs.v
theories/AllocProps.v
theories/AllocProps2.v
theories/AllocSpec.v
theories/AqModel.v
theories/AqProofs.v
theories/AqProofs2.v
theories/AqProps.v
theories/AqSpec.v
theories/AsyncModel.v
theories/AsyncProofs.v
theories/AsyncProps.v
theories/AsyncSpec.v
theories/BeladyProofs.v
theories/BeladyProofs2.v
theories/BeladyProps.v
theories/BeladySpec.v
theories/BenchMain.v
theories/BenchModel.v
theories/BenchProofs.v
theories/BenchProps.v
theories/BenchSpec.v
theories/BootExit.v
theories/BootExitProps.v
theories/BootModel.v
theories/BootProofs.v
theories/BootProps.v
theories/BootRetry.v
theories/BootSpec.v
theories/BsDtorModel.v
theories/BsDtorProofs.v
theories/BsDtorProofs2.v
theories/BsDtorProps.v
theories/BsModel.v
theories/BsProofs.v
theories/BsProofs2.v
theories/BsProofs3.v
theories/BsProofs4.v
theories/BsProofs5.v
theories/BsProofs6.v
theories/BsProofs7.v
theories/BsProps1.v
theories/BsProps2.v
theories/BsSpaceProofs.v
theories/BsSpec.v
theories/BsStoreActs.v
theories/BsStoreDisk.v
theories/BsStoreModel.v
theories/BsStoreProofs.v
theories/BsStoreProps.v
theories/BsStoreProps2.v
theories/BsStoreSpec.v
theories/ConfigModel.v
theories/ConfigProofs.v
theories/ConfigProofs2.v
theories/ConfigProofs3.v
theories/ConfigProofs4.v
theories/ConfigProps.v
theories/ConfigSpec.v
theories/DumpModel.v
theories/DumpProps.v
theories/ErrnoModel.v
theories/ErrnoProps.v
theories/ExportModel.v
theories/ExportProps.v
theories/FileModel.v
theories/FileProofs.v
theories/FileProps.v
theories/FileSpec.v
theories/GrowMain.v
theories/GrowModel.v
theories/GrowProofs.v
theories/GrowProps.v
theories/GrowSpec.v
theories/LifeLog.v
theories/LifeMain.v
theories/LifeMain2.v
theories/LifeMain3.v
theories/LifeModel.v
theories/LifeProofs.v
theories/LifeProofs2.v
theories/LifeProps.v
theories/LifeSpec.v
theories/LioLiveProps.v
theories/LioModel.v
theories/LioProofs.v
theories/LioProofs2.v
theories/LioProps.v
theories/LioSpec.v
theories/LioStopModel.v
theories/LioStopProofs.v
theories/LioStopProofs2.v
theories/LioStopProofs3.v
theories/LioStopProps.v
theories/LioStopSpec.v
theories/LockModel.v
theories/LockProofs.v
theories/LockProps.v
theories/LockSpec.v
theories/ManagerMain.v
theories/ManagerModel.v
theories/ManagerProofs.v
theories/ManagerProps.v
theories/ManagerSpec.v
theories/MemModel.v
theories/MemProofs.v
theories/MemProps.v
theories/MemSpec.v
theories/MmapModel.v
theories/MmapProps.v
theories/OffsModel.v
theories/OffsProofs.v
theories/OffsProps.v
theories/OpenModel.v
theories/OpenProofs.v
theories/OpenProps.v
theories/OpenSpec.v
theories/PackModel.v
theories/PackProps.v
theories/PfDtorModel.v
theories/PfDtorProofs.v
theories/PfInv.v
theories/PfModel.v
theories/PfProofs1.v
theories/PfProofs10.v
theories/PfProofs11.v
theories/PfProofs12.v
theories/PfProofs13.v
theories/PfProofs14.v
theories/PfProofs2.v
theories/PfProofs3.v
theories/PfProofs4.v
theories/PfProofs5.v
theories/PfProofs6.v
theories/PfProofs7.v
theories/PfProofs8.v
theories/PfProofs9.v
theories/PfProps1.v
theories/PfProps2.v
theories/PfSpaceProofs.v
theories/PfSpec.v
theories/PoolErrModel.v
theories/PoolErrProofs.v
theories/PoolErrProofs2.v
theories/PoolErrProps.v
theories/PoolModel.v
theories/PoolProofs.v
theories/PoolProofs2.v
theories/PoolProofs3.v
theories/PoolProofs4.v
theories/PoolProofs5.v
theories/PoolProofs6.v
theories/PoolProofs7.v
theories/PoolProps.v
theories/PoolQModel.v
theories/PoolQProofs.v
theories/PoolQProofs2.v
theories/PoolQProps.v
theories/PoolSpec.v
theories/PrefetchErrModel.v
theories/PrefetchErrProofs.v
theories/PrefetchErrProofs2.v
theories/PrefetchErrProps.v
theories/PrefetchErrSpec.v
theories/PrefetchModel.v
theories/PrefetchProofs.v
theories/PrefetchProofs2.v
theories/PrefetchProofs3.v
theories/PrefetchProps.v
theories/PrefetchSpec.v
theories/QueueAny.v
theories/QueueClients.v
theories/QueueFair.v
theories/QueueFairProps.v
theories/QueueFairSpec.v
theories/QueueFifo.v
theories/QueueLife.v
theories/QueueMain.v
theories/QueueModel.v
theories/QueueProgress.v
theories/QueueProofs.v
theories/QueueProps.v
theories/QueueProps2.v
theories/QueueRun.v
theories/QueueSpec.v
theories/QueueTokens.v
theories/QueueTrace.v
theories/RaceModel.v
theories/RaceProofs.v
theories/RaceProps.v
theories/RaceQueueProps.v
theories/RaceSpec.v
theories/RegistryModel.v
theories/RegistryProofs.v
theories/RegistryProps.v
theories/RegistrySpec.v
theories/ScheduleModel.v
theories/ScheduleOptProofs.v
theories/ScheduleOptProps.v
theories/ScheduleOptSpec.v
theories/ScheduleProofs.v
theories/ScheduleProofs2.v
theories/ScheduleProps.v
theories/ScheduleSpec.v
theories/ScopedModel.v
theories/ScopedProofs.v
theories/ScopedProps.v
theories/ScopedSpec.v
theories/SingletonModel.v
theories/SingletonProofs.v
theories/SingletonProofs2.v
theories/SingletonProps.v
theories/SingletonSpec.v
theories/SnapModel.v
theories/SnapProofs.v
theories/SnapProps.v
theories/SnapSpec.v
theories/StatsModel.v
theories/StatsProofs.v
theories/StatsProofs2.v
theories/StatsProofs3.v
theories/StatsProps.v
theories/StatsSpec.v
theories/StoreACaseProps.v
theories/StoreALiveProps.v
theories/StoreAModel.v
theories/StoreAProofs.v
theories/StoreAProps.v
theories/StoreASpec.v
theories/StoreModel.v
theories/StoreProofs.v
theories/StoreProofs2.v
theories/StoreProps.v
theories/StoreQLive.v
theories/StoreQModel.v
theories/StoreQProofs.v
theories/StoreQProofs2.v
theories/StoreQProps.v
theories/StoreQSpec.v
theories/StoreSpec.v
theories/StrategyModel.v
theories/StrategyProofs.v
theories/StrategyProps.v
theories/StrategySpec.v
theories/StreamErrModel.v
theories/StreamErrProofs.v
theories/StreamErrProofs2.v
theories/StreamErrProps.v
theories/StreamErrSpec.v
theories/StreamModel.v
theories/StreamProofs.v
theories/StreamProofs2.v
theories/StreamProps.v
theories/SummaryModel.v
theories/SummaryProps.v
theories/TimerModel.v
theories/TimerProps.v
theories/TogetherModel.v
theories/TogetherProofs.v
theories/TogetherProps.v
theories/TogetherProps2.v
theories/TogetherRead.v
theories/TogetherSpec.v
theories/TogetherStore.v
theories/ToolMainModel.v
theories/ToolMainProps.v
theories/ToolModel.v
theories/ToolProps.v
theories/ToolSpec.v
theories/UtilModel.v
theories/UtilProofs.v
theories/UtilProofs2.v
theories/UtilProps.v
theories/UtilSpec.v
theories/WinMain.v
theories/WinMain2.v
theories/WinModel.v
theories/WinProofs.v
theories/WinProps.v
theories/WinSpec.v
theories/WrapManager.v
theories/WrapModel.v
theories/WrapProofs.v
theories/WrapProps.v
theories/WrapSpec.v
theories/WriterErrModel.v
theories/WriterErrProofs.v
theories/WriterErrProofs2.v
theories/WriterErrProps.v
theories/WriterErrSpec.v
theories/WriterModel.v
theories/WriterProofs.v
theories/WriterProofs2.v
theories/WriterProofs3.v
theories/WriterProofs4.v
theories/WriterProps.v
theories/WriterSpec.v
theories/XferModel.v
theories/XferProofs.v
theories/XferProps.v
theories/XferSpec.v
