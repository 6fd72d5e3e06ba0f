-Q theories Verif
theories/AddrDecodeModel.v
theories/AddrDecodeProps.v
theories/ArchDataModel.v
theories/ArchDataProofs.v
theories/ArchDataProps.v
theories/ArrayModel.v
theories/ArrayProofs.v
theories/ArrayProps.v
theories/BitArrayModel.v
theories/BitArrayProps.v
theories/BoundedModel.v
theories/BoundedProofs.v
theories/BoundedProps.v
theories/BufferModel.v
theories/BufferProofs.v
theories/BufferProps.v
theories/CacheModel.v
theories/CacheProofs.v
theories/CacheProps.v
theories/CacheSteps.v
theories/CacheSteps2.v
theories/CachedMemModel.v
theories/CachedMemProofs.v
theories/CachedMemProps.v
theories/CherryModel.v
theories/CherryProofs.v
theories/CherryProps.v
theories/CherrySpec.v
theories/CircularBufferModel.v
theories/CircularBufferProofs.v
theories/CircularBufferProps.v
theories/CkptData.v
theories/CkptModel.v
theories/CkptOps.v
theories/CkptProps.v
theories/CkptSteps.v
theories/CkptTree.v
theories/CkptWorld.v
theories/ClockModel.v
theories/ClockProofs.v
theories/ClockProps.v
theories/CycleTriggerModel.v
theories/CycleTriggerProps.v
theories/DagModel.v
theories/DagProofs.v
theories/DagProps.v
theories/DataPortModel.v
theories/DataPortProps.v
theories/DataViewModel.v
theories/DataViewProps.v
theories/FastListModel.v
theories/FastListProofs.v
theories/FastListProps.v
theories/HistogramModel.v
theories/HistogramProofs.v
theories/HistogramProps.v
theories/LayoutModel.v
theories/LayoutProofs.v
theories/LayoutProps.v
theories/LexCastModel.v
theories/LexCastProofs.v
theories/LexCastProps.v
theories/LexCastSpec.v
theories/MathUtilsModel.v
theories/MathUtilsProofs.v
theories/MathUtilsProps.v
theories/MemIFModel.v
theories/MemIFProofs.v
theories/MemIFProps.v
theories/MemMapModel.v
theories/MemMapProofs.v
theories/MemMapProps.v
theories/MemMapTree.v
theories/NotifyEvents.v
theories/NotifyModel.v
theories/NotifyNames.v
theories/NotifyProofs.v
theories/NotifyProps.v
theories/ParamTreeMergeProps.v
theories/ParamTreeModel.v
theories/ParamTreeProofs.v
theories/ParamTreeProps.v
theories/ParamTreeReadProps.v
theories/ParamTreeReqProps.v
theories/ParamTreeSpec.v
theories/PayloadModel.v
theories/PayloadProofs.v
theories/PayloadProps.v
theories/PipeModel.v
theories/PipeProofs.v
theories/PipeProps.v
theories/PipelineModel.v
theories/PipelineProofs.v
theories/PipelineProps.v
theories/PriorityQueueModel.v
theories/PriorityQueueProofs.v
theories/PriorityQueueProps.v
theories/QueueModel.v
theories/QueueProofs.v
theories/QueueProps.v
theories/RationalModel.v
theories/RationalProofs.v
theories/RationalProps.v
theories/RegisterBitsModel.v
theories/RegisterBitsProps.v
theories/RegisterFieldProps.v
theories/RegisterModel.v
theories/RegisterProofs.v
theories/RegisterProps.v
theories/ReplacementModel.v
theories/ReplacementProofs.v
theories/ReplacementProps.v
theories/SchedModel.v
theories/SchedProofs.v
theories/SchedProps.v
theories/SchedRunProofs.v
theories/SchedTimeProps.v
theories/SchedUniqProofs.v
theories/ScoreboardModel.v
theories/ScoreboardProofs.v
theories/ScoreboardProps.v
theories/SharedDataModel.v
theories/SharedDataProps.v
theories/SharedPtrModel.v
theories/SharedPtrProofs.v
theories/SharedPtrProps.v
theories/SharedPtrSafety.v
theories/SignalPortModel.v
theories/SignalPortProofs.v
theories/SignalPortProps.v
theories/SignalPortSpec.v
theories/SingleCycleModel.v
theories/SingleCycleProps.v
theories/SquashModel.v
theories/SquashProofs.v
theories/SquashProps.v
theories/SquashTree.v
theories/SquashWorld.v
theories/StatInstFloat.v
theories/StatInstModel.v
theories/StatInstProofs.v
theories/StatInstProps.v
theories/StatModel.v
theories/StatProps.v
theories/StateModel.v
theories/StateProofs.v
theories/StateProps.v
theories/StateSpec.v
theories/StateTimerModel.v
theories/StateTimerProofs.v
theories/StateTimerProps.v
theories/StateTimerSpec.v
theories/StorageArch.v
theories/StorageModel.v
theories/StorageProofs.v
theories/StorageProps.v
theories/StringMgrModel.v
theories/StringMgrProps.v
theories/SyncPortModel.v
theories/SyncPortProps.v
theories/TagModel.v
theories/TagProofs.v
theories/TagProps.v
theories/TieredMapModel.v
theories/TieredMapProps.v
theories/TreeNameFacts.v
theories/TreeNameFind.v
theories/TreeNameInv.v
theories/TreeNameLoc.v
theories/TreeNameModel.v
theories/TreeNamePriv.v
theories/TreeNameProofs.v
theories/TreeNameProps.v
theories/TreeNameSpec.v
theories/TriggerModel.v
theories/TriggerProofs.v
theories/TriggerProps.v
theories/Words.v
theories/WrapModel.v
theories/WrapProps.v
