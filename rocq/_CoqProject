-Q theories Verif
theories/Base/ZList.v
theories/Spec/Exn.v
theories/Spec/SeqSpec.v
theories/Container/Mem.v
theories/Container/VectorModel.v
theories/Container/DequeModel.v
theories/Container/Triple.v
theories/Container/Rep.v
theories/Container/Loops.v
theories/Container/GenInsert.v
theories/Container/ListRep.v
theories/Container/VectorProofs.v
theories/Container/VectorTheorems.v
theories/Props/VectorProps.v
theories/Container/DequeProofs.v
theories/Container/DequeTheorems.v
theories/Props/DequeProps.v
theories/Spec/ListFamSpec.v
theories/Container/IntrusiveListModel.v
theories/Container/IntrusiveListProofs.v
theories/Container/IntrusiveListRep.v
theories/Container/IntrusiveListTheorems.v
theories/Props/IntrusiveListProps.v
theories/Spec/BitSpec.v
theories/Container/BitPatternModel.v
theories/Container/BitPatternProofs.v
theories/Container/ArrayModel.v
theories/Container/ArrayProofs.v
theories/Spec/AssertSpec.v
theories/Assertion/AssertionModel.v
theories/Assertion/AssertionProofs.v
theories/Assertion/AssertionMore.v
theories/Props/MiscProps.v
theories/Spec/OSError.v
theories/Spec/Linear.v
theories/OS/Sched.v
theories/Spec/EventFlagSpec.v
theories/OS/EventFlagModel.v
theories/OS/EventFlagProofs.v
theories/Props/EventFlagProps.v
theories/Spec/MutexSpec.v
theories/OS/MutexModel.v
theories/OS/MutexProofs.v
theories/Spec/GuardSpec.v
theories/OS/LockGuardModel.v
theories/OS/LockGuardProofs.v
theories/Props/MutexProps.v
theories/Spec/MessageQueueSpec.v
theories/OS/MessageQueueModel.v
theories/OS/MessageQueueProofs.v
theories/Spec/Resource.v
theories/Spec/ThreadSpec.v
theories/OS/Resources.v
theories/OS/MessageQueueCreate.v
theories/OS/MessageQueueCreateProofs.v
theories/Props/MessageQueueProps.v
theories/OS/ThreadModel.v
theories/OS/ThreadProofs.v
theories/Props/ThreadProps.v
theories/Spec/HandlerSpec.v
theories/OS/HandlerModel.v
theories/OS/HandlerProofs.v
theories/Props/HandlerProps.v
theories/Spec/FacadeSpec.v
theories/OS/FacadeModel.v
theories/OS/FacadeProofs.v
theories/Props/FacadeProps.v
theories/Spec/PrioritySpec.v
theories/OS/PriorityModel.v
theories/OS/PriorityProofs.v
theories/Props/PriorityProps.v
theories/OS/ItronMutexModel.v
theories/OS/ItronMutexProofs.v
theories/Props/ItronMutexProps.v
theories/Spec/TimerSpec.v
theories/OS/TimerModel.v
theories/OS/TimerProofs.v
theories/OS/TimerLiveness.v
theories/Props/TimerProps.v
theories/Spec/ThreadPoolSpec.v
theories/OS/ThreadPoolModel.v
theories/OS/ThreadPoolProofs.v
theories/OS/ThreadPoolLiveness.v
theories/Props/ThreadPoolProps.v
theories/OS/ThreadPoolCreate.v
theories/OS/ThreadPoolCreateProofs.v
theories/Props/ThreadPoolCreateProps.v
theories/OS/ItronEventFlagModel.v
theories/OS/ItronEventFlagProofs.v
theories/Props/ItronEventFlagProps.v
theories/Spec/ItronThreadSpec.v
theories/OS/ItronThreadModel.v
theories/OS/ItronThreadProofs.v
theories/Props/ItronThreadProps.v
theories/Spec/WinTimerSpec.v
theories/OS/WinTimerModel.v
theories/OS/WinTimerProofs.v
theories/OS/WinTimerMore.v
theories/Props/WinTimerProps.v
theories/Spec/MemPoolSpec.v
theories/OS/ItronPoolModel.v
theories/OS/ItronPoolProofs.v
theories/Props/ItronPoolProps.v
theories/Spec/CurrentThreadSpec.v
theories/OS/ItronThreadFactoryModel.v
theories/OS/ItronThreadFactoryProofs.v
theories/OS/StdThreadFactoryModel.v
theories/OS/StdThreadFactoryProofs.v
theories/Props/ItronThreadFactoryProps.v
theories/Props/StdThreadFactoryProps.v
theories/Spec/ObjectSpec.v
theories/OS/ItronObjectModel.v
theories/OS/ItronObjectProofs.v
theories/Props/ItronObjectProps.v
theories/OS/TimerFactoryModel.v
theories/OS/TimerFactoryProofs.v
theories/Props/TimerFactoryProps.v
theories/Spec/StopSpec.v
theories/Container/NoExcModel.v
theories/Container/NoExcProofs.v
theories/Props/NoExcProps.v
theories/OS/QueueStackModel.v
theories/OS/QueueStackProofs.v
theories/OS/QueueStackInst.v
theories/OS/QueueStackRuns.v
theories/Spec/TimedSpec.v
theories/OS/TimedModel.v
theories/OS/TimedProofs.v
theories/OS/TimedMutexProofs.v
theories/OS/TimedEventProofs.v
theories/OS/TimedQueueProofs.v
theories/Props/QueueStackProps.v
theories/Props/TimedProps.v
theories/Spec/TimerTimeSpec.v
theories/OS/TimerTimeModel.v
theories/OS/TimerTimeProofs.v
theories/OS/TimerTimeLate.v
theories/Props/TimerTimeProps.v
theories/Spec/VarPoolSpec.v
theories/OS/VarPoolModel.v
theories/OS/VarPoolProofs.v
theories/OS/VarPoolMore.v
theories/Props/VarPoolProps.v
theories/Spec/ThreadAttrSpec.v
theories/OS/LinCheck.v
theories/OS/ThreadAttrModel.v
theories/OS/ThreadAttrProofs.v
theories/OS/ThreadAttrMore.v
theories/Props/ThreadAttrProps.v
theories/OS/Monitor.v
theories/OS/ThreadFineModel.v
theories/OS/ThreadFineProofs.v
theories/OS/TimerFineModel.v
theories/OS/TimerFineProofs.v
theories/OS/FineResults.v
theories/Props/FineProps.v
theories/Spec/PlatformSpec.v
theories/OS/PlatformModel.v
theories/OS/PlatformProofs.v
theories/Props/PlatformProps.v
theories/Spec/DoubleSpec.v
theories/OS/DoubleModel.v
theories/OS/DoubleProofs.v
theories/OS/DoublePoolModel.v
theories/OS/DoublePoolProofs.v
theories/Props/DoubleProps.v
theories/Props/DoublePoolProps.v
theories/OS/PoolStackModel.v
theories/OS/PoolStackProofs.v
theories/Props/PoolStackProps.v
theories/Spec/HandlerRaceSpec.v
theories/OS/HandlerRaceModel.v
theories/OS/HandlerRaceProofs.v
theories/Props/HandlerRaceProps.v
theories/Spec/RaceSpec.v
theories/OS/RaceModel.v
theories/OS/RaceProofs.v
theories/Props/RaceProps.v
theories/Spec/TimedMoreSpec.v
theories/OS/TimedCalls.v
theories/OS/TimedThreadModel.v
theories/OS/TimedThreadProofs.v
theories/OS/TimedPoolModel.v
theories/OS/TimedPoolProofs.v
theories/Props/TimedMoreProps.v
theories/Spec/ListMisuseSpec.v
theories/Container/IntrusiveListMisuse.v
theories/Props/IntrusiveListMisuseProps.v
theories/OS/PoolWholeModel.v
theories/OS/PoolWholeProofs.v
theories/OS/PoolStill.v
theories/OS/PoolWholeLive.v
theories/OS/PoolWholeRuns.v
theories/Props/PoolWholeProps.v
theories/Spec/CopySpec.v
theories/Container/Cost.v
theories/Container/GenCost.v
theories/Container/VectorCost.v
theories/Container/DequeCost.v
theories/Container/CostTheorems.v
theories/Container/CostRuns.v
theories/Props/CostProps.v
theories/OS/PoolObjects.v
theories/OS/PoolItronModel.v
theories/OS/PoolItronProofs.v
theories/OS/PoolItronLive.v
theories/OS/PoolItronBound.v
theories/OS/PoolBack.v
theories/OS/PoolItronBack.v
theories/OS/PoolWholeBound.v
theories/OS/PoolItronRuns.v
theories/Props/PoolItronProps.v
theories/Spec/TimedItronSpec.v
theories/OS/TimedItronModel.v
theories/OS/TimedItronMutexProofs.v
theories/OS/TimedItronEventProofs.v
theories/OS/TimedItronThreadModel.v
theories/OS/TimedItronThreadProofs.v
theories/Props/TimedItronProps.v
theories/Spec/CyclicSpec.v
theories/OS/CyclicModel.v
theories/OS/CyclicProofs.v
theories/Props/CyclicProps.v
theories/Spec/WinTimeSpec.v
theories/OS/WinTimeModel.v
theories/OS/WinTimeProofs.v
theories/OS/WinTimeMore.v
theories/Props/WinTimeProps.v
theories/Spec/DurationSpec.v
theories/OS/DurationModel.v
theories/OS/DurationProofs.v
theories/Props/DurationProps.v
theories/Spec/StaticSpec.v
theories/OS/StaticModel.v
theories/OS/StaticProofs.v
theories/Props/StaticProps.v
theories/Spec/ContextSpec.v
theories/OS/ContextModel.v
theories/OS/ContextProofs.v
theories/Props/ContextProps.v
theories/Spec/FlagContextSpec.v
theories/OS/FlagContextModel.v
theories/OS/FlagContextProofs.v
theories/Props/FlagContextProps.v
