-Q theories Verif
theories/Base.v
theories/WorkQueue_model.v
theories/WorkQueue_spec.v
theories/WorkQueue_proofs.v
theories/WorkQueueSched_model.v
theories/WorkQueueSched_proofs.v
theories/WorkQueue_props.v
theories/WaitPQ_model.v
theories/WaitPQ_spec.v
theories/WaitPQ_proofs.v
theories/DelayQueue_model.v
theories/DelayQueue_spec.v
theories/DelayQueue_proofs.v
theories/WaitPQ_props.v
theories/DelayQueue_props.v
theories/RateLimit_model.v
theories/RateLimit_spec.v
theories/RateLimit_proofs.v
theories/RateLimit_props.v
theories/Fifo_model.v
theories/Fifo_spec.v
theories/Fifo_proofs.v
theories/FifoSched_model.v
theories/FifoSched_proofs.v
theories/Fifo_props.v
theories/DeltaFifo_model.v
theories/DeltaFifo_spec.v
theories/DeltaFifo_proofs.v
theories/DeltaFifo_proofs2.v
theories/DeltaFifoSched_model.v
theories/DeltaFifoSched_proofs.v
theories/DeltaFifo_props.v
theories/Store_model.v
theories/Store_spec.v
theories/Store_proofs.v
theories/Store_props.v
theories/KeyFunc_model.v
theories/KeyFunc_spec.v
theories/KeyFunc_proofs.v
theories/KeyFunc_props.v
theories/Reflector_model.v
theories/Reflector_spec.v
theories/Reflector_proofs.v
theories/World_model.v
theories/World_proofs.v
theories/Reflector_props.v
theories/Informer_model.v
theories/Informer_spec.v
theories/Informer_proofs.v
theories/Informer_proofs2.v
theories/Informer_proofs3.v
theories/Informer_proofs4.v
theories/InformerWorld_model.v
theories/InformerWorld_proofs.v
theories/Informer_proofs5.v
theories/Informer_props.v
theories/Listener_model.v
theories/Listener_spec.v
theories/Listener_proofs.v
theories/Listener_props.v
theories/SharedInformer_model.v
theories/SharedInformer_spec.v
theories/SharedInformer_proofs.v
theories/SharedInformer_proofs2.v
theories/SharedInformer_proofs3.v
theories/SharedInformer_props.v
theories/Wait_model.v
theories/Wait_spec.v
theories/Wait_proofs.v
theories/Wait_props.v
theories/Clock_model.v
theories/Clock_spec.v
theories/Clock_proofs.v
theories/Clock_proofs2.v
theories/Clock_props.v
theories/Mux_model.v
theories/Mux_spec.v
theories/Mux_proofs.v
theories/Mux_proofs2.v
theories/Mux_proofs3.v
theories/Mux_proofs4.v
theories/Mux_props.v
theories/LeaderElection_model.v
theories/LeaderElection_spec.v
theories/LeaderElection_proofs.v
theories/LeaderElection_proofs2.v
theories/LeaderElection_props.v
theories/Controller_model.v
theories/Controller_spec.v
theories/Controller_proofs.v
theories/Controller_proofs2.v
theories/Controller_proofs3.v
theories/Controller_props.v
theories/Controller_live_spec.v
theories/Controller_live_proofs.v
theories/Controller_live_props.v
theories/Source_model.v
theories/Source_spec.v
theories/Source_proofs.v
theories/Source_props.v
theories/InformersMap_model.v
theories/InformersMap_spec.v
theories/InformersMap_proofs.v
theories/InformersMap_props.v
theories/Manager_model.v
theories/Manager_spec.v
theories/Manager_proofs.v
theories/Manager_proofs2.v
theories/Manager_proofs3.v
theories/Manager_proofs4.v
theories/Manager_props.v
theories/Manager_live_spec.v
theories/Manager_live_proofs.v
theories/Manager_live_props.v
theories/FakeSource_model.v
theories/FakeSource_spec.v
theories/FakeSource_proofs.v
theories/FakeSource_props.v
theories/Client_model.v
theories/Client_spec.v
theories/Client_proofs.v
theories/Client_props.v
theories/Watch_model.v
theories/Watch_spec.v
theories/Watch_proofs.v
theories/Watch_props.v
theories/RealTime_model.v
theories/RealTime_spec.v
theories/RealTime_proofs.v
theories/RealTime_props.v
theories/NsIndex_model.v
theories/NsIndex_spec.v
theories/NsIndex_proofs.v
theories/NsIndex_props.v
theories/System_model.v
theories/System_spec.v
theories/System_proofs.v
theories/System_proofs2.v
theories/System_props.v
theories/System_live_spec.v
theories/System_live_proofs.v
theories/System_live_proofs2.v
theories/System_live_proofs3.v
theories/System_live_proofs4.v
theories/System_live_proofs5.v
theories/System_live_proofs6.v
theories/System_live_proofs7.v
theories/System_live_props.v
theories/DelayQueue_live_spec.v
theories/DelayQueue_live_proofs.v
theories/Controller_retry_spec.v
theories/Controller_retry_proofs.v
theories/Controller_retry_proofs2.v
theories/Controller_retry_props.v
theories/ManagerStop_model.v
theories/ManagerStop_spec.v
theories/ManagerStop_proofs.v
theories/ManagerStop_props.v
theories/InformerStop_model.v
theories/InformerStop_spec.v
theories/InformerStop_proofs.v
theories/InformerStop_proofs2.v
theories/InformerStop_props.v
theories/Example_model.v
theories/Example_spec.v
theories/Example_proofs.v
theories/Example_proofs2.v
theories/Example_props.v
theories/Request_model.v
theories/Request_spec.v
theories/Request_proofs.v
theories/Request_props.v
theories/Resync_model.v
theories/Resync_spec.v
theories/Resync_proofs.v
theories/Resync_props.v
theories/Calls_spec.v
theories/Calls_proofs.v
theories/Calls_props.v
theories/Pace_model.v
theories/Pace_spec.v
theories/Pace_proofs.v
theories/Pace_props.v
theories/PyOld_model.v
theories/PyOld_spec.v
theories/PyOld_proofs.v
theories/PyOld_props.v
theories/ListenerTime_model.v
theories/ListenerTime_spec.v
theories/ListenerTime_proofs.v
theories/ListenerTime_props.v
theories/Inject_model.v
theories/Inject_spec.v
theories/Inject_proofs.v
theories/Inject_props.v
theories/SystemWait_model.v
theories/SystemWait_proofs.v
theories/SystemWait_proofs2.v
theories/SystemWait_props.v
theories/Twice_model.v
theories/Twice_spec.v
theories/Twice_proofs.v
theories/Twice_props.v
theories/Fanout_model.v
theories/Fanout_spec.v
theories/Fanout_proofs.v
theories/Fanout_props.v
theories/Heap_model.v
theories/Heap_spec.v
theories/Heap_proofs.v
theories/Heap_props.v
theories/ManyRuns_model.v
theories/ManyRuns_spec.v
theories/ManyRuns_proofs.v
theories/ManyRuns_props.v
theories/Rounded_model.v
theories/Rounded_spec.v
theories/Rounded_double.v
theories/Rounded_proofs.v
theories/Rounded_props.v
theories/Alias_model.v
theories/Alias_spec.v
theories/Alias_proofs.v
theories/Alias_props.v
theories/InformerAgain_model.v
theories/InformerAgain_spec.v
theories/InformerAgain_proofs.v
theories/InformerAgain_props.v
theories/DeltaArg_model.v
theories/DeltaArg_spec.v
theories/DeltaArg_proofs.v
theories/DeltaArg_props.v
theories/DeltaRef_model.v
theories/DeltaRef_spec.v
theories/DeltaRef_proofs.v
theories/DeltaRef_props.v
theories/RecordText_model.v
theories/RecordText_spec.v
theories/RecordText_proofs.v
theories/RecordText_proofs2.v
theories/RecordText_props.v
theories/AsyncLock_model.v
theories/AsyncLock_spec.v
theories/AsyncLock_proofs.v
theories/AsyncLock_props.v
theories/AsyncQueue_model.v
theories/AsyncQueue_spec.v
theories/AsyncQueue_proofs.v
theories/AsyncQueue_props.v
theories/Meta_model.v
theories/Meta_spec.v
theories/Meta_proofs.v
theories/Meta_props.v
theories/AsyncCond_model.v
theories/AsyncCond_spec.v
theories/AsyncCond_proofs.v
theories/AsyncCond_proofs2.v
theories/AsyncCond_proofs3.v
theories/AsyncCond_proofs4.v
theories/AsyncCond_props.v
theories/WatchLoop_model.v
theories/WatchLoop_spec.v
theories/WatchLoop_proofs.v
theories/WatchLoop_proofs2.v
theories/WatchLoop_proofs3.v
theories/WatchLoop_proofs4.v
theories/WatchLoop_proofs5.v
theories/WatchLoop_proofs6.v
theories/WatchLoop_proofs7.v
theories/WatchLoop_proofs8.v
theories/WatchLoop_props.v
theories/WatchFeed_model.v
theories/WatchFeed_spec.v
theories/WatchFeed_proofs.v
theories/WatchFeed_proofs2.v
theories/WatchFeed_proofs3.v
theories/WatchFeed_props.v
