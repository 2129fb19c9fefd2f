-Q theories Verif
theories/Base.v
theories/BaseLemmas.v
theories/IntMath.v
theories/IntMathProofs.v
theories/Buddy.v
theories/BuddyTree.v
theories/BuddyPage.v
theories/BuddyProofs.v
theories/History.v
theories/BuddyHistory.v
theories/PropIntMath.v
theories/BuddyExamples.v
theories/PropBuddy.v
theories/Align.v
theories/AlignProofs.v
theories/Contiguous.v
theories/ContiguousProofs.v
theories/PropContiguous.v
theories/Forwarding.v
theories/ForwardingProofs.v
theories/PropForwarding.v
theories/Instrument.v
theories/InstrumentProofs.v
theories/PropInstrument.v
theories/Sync.v
theories/SyncProofs.v
theories/PropSync.v
theories/HostRes.v
theories/HostResProofs.v
theories/PropHostRes.v
theories/UniquePtr.v
theories/UniquePtrProofs.v
theories/PropUniquePtr.v
theories/Pool.v
theories/PoolProofs.v
theories/PoolHistory.v
theories/PoolTheorems.v
theories/PoolExamples.v
theories/PropPool.v
theories/Arena.v
theories/ArenaSets.v
theories/ArenaProofs.v
theories/ArenaExamples.v
theories/PropArena.v
theories/Placement.v
theories/PlacementProofs.v
theories/JaggedBufferProofs.v
theories/PropPlacement.v
theories/EdmBuffer.v
theories/EdmBufferProofs.v
theories/EdmBufferTheorems.v
theories/EdmBufferFinal.v
theories/PropEdmBuffer.v
theories/Slots.v
theories/DeviceVector.v
theories/DeviceVectorProofs.v
theories/AppendConc.v
theories/AppendConcProofs.v
theories/PropDeviceVector.v
theories/StaticVector.v
theories/StaticVectorProofs.v
theories/StaticVectorTheorems.v
theories/PropStaticVector.v
theories/Copy.v
theories/CopyProofs.v
theories/CopyJaggedProofs.v
theories/CopyJaggedTheorems.v
theories/CopyExamples.v
theories/PropCopy.v
theories/EdmCopy.v
theories/EdmCopyLayout.v
theories/EdmCopyProofs.v
theories/EdmCopyViews.v
theories/EdmCopyExamples.v
theories/PropEdmCopy.v
theories/Atomics.v
theories/AtomicsProofs.v
theories/PropAtomics.v
theories/EdmHost.v
theories/EdmHostProofs.v
theories/PropEdmHost.v
theories/Iterators.v
theories/IteratorsProofs.v
theories/PropIterators.v
theories/Async.v
theories/AsyncProofs.v
theories/AsyncCopyProofs.v
theories/AsyncJagged.v
theories/AsyncTheorems.v
theories/Sycl.v
theories/SyclProofs.v
theories/PropAsync.v
theories/Devices.v
theories/DevicesProofs.v
theories/Wrappers.v
theories/WrappersProofs.v
theories/PropDevices.v
theories/CopyHost.v
theories/CopyHostProofs.v
theories/EdmToHost.v
theories/PropCopyHost.v
theories/ResEqual.v
theories/ResEqualProofs.v
theories/PropResEqual.v
theories/EdmDevice.v
theories/EdmDeviceProofs.v
theories/PropEdmDevice.v
theories/Views.v
theories/ViewsProofs.v
theories/PropViews.v
theories/Kernel.v
theories/KernelProofs.v
theories/KernelSafe.v
theories/PipelineProofs.v
theories/PropPipeline.v
theories/Backends.v
theories/BackendsProofs.v
theories/PropBackends.v
theories/JaggedKernel.v
theories/JaggedKernelProofs.v
theories/PropJaggedKernel.v
theories/JaggedPipelineProofs.v
theories/PropJaggedPipeline.v
theories/EdmKernel.v
theories/EdmKernelProofs.v
theories/PropEdmKernel.v
theories/EdmPipelineProofs.v
theories/PropEdmPipeline.v
theories/Races.v
theories/RacesProofs.v
theories/PropRaces.v
theories/Stack.v
theories/StackProofs.v
theories/StackLayers.v
theories/StackBuddy.v
theories/StackPool.v
theories/StackMonitor.v
theories/StackExamples.v
theories/PropStack.v
theories/SyncStack.v
theories/SyncStackProofs.v
theories/PropSyncStack.v
theories/SyncPrivate.v
theories/SyncPrivateProofs.v
theories/PropSyncPrivate.v
theories/SyncCopy.v
theories/SyncCopyProofs.v
theories/PropSyncCopy.v
theories/MemOrder.v
theories/MemOrderProofs.v
theories/PropMemOrder.v
theories/EdmHostData.v
theories/EdmHostDataProofs.v
theories/PropEdmHostData.v
theories/Graph.v
theories/GraphProofs.v
theories/GraphProgress.v
theories/GraphExamples.v
theories/PropGraph.v
theories/Tuple.v
theories/TupleProofs.v
theories/PropTuple.v
theories/ProxyTypes.v
theories/ProxyProofs.v
theories/PropProxy.v
theories/HostMemory.v
theories/HostMemoryProofs.v
theories/PropHostMemory.v
theories/ConstViews.v
theories/ConstViewsProofs.v
theories/PropConstViews.v
theories/SyncGraph.v
theories/SyncGraphProofs.v
theories/PropSyncGraph.v
theories/BufProg.v
theories/BufProgProofs.v
theories/PropBufProg.v
theories/KernProg.v
theories/KernProgProofs.v
theories/PropKernProg.v
theories/KernRaces.v
theories/KernRacesProofs.v
theories/PropKernRaces.v
theories/ElemProg.v
theories/ElemProgProofs.v
theories/ElemMapProofs.v
theories/PropElemProg.v
theories/HistProg.v
theories/HistProgProofs.v
theories/PropHistProg.v
theories/StreamProg.v
theories/StreamProgProofs.v
theories/PropStreamProg.v
theories/StreamsProg.v
theories/StreamsProgProofs.v
theories/PropStreamsProg.v
