-Q theories Verif
theories/Base.v
theories/LockFreeStack_Model.v
theories/LockFreeStack_Spec.v
theories/LockFreeStack_Proofs.v
theories/LockFreeStack_Props.v
theories/SmartObjectPool_Model.v
theories/SmartObjectPool_Spec.v
theories/SmartObjectPool_Proofs.v
theories/ObjectPoolPublisher_Proofs.v
theories/SmartObjectPool_Props.v
theories/SafeEmitter_Model.v
theories/SafeEmitter_Spec.v
theories/SafeEmitter_Proofs.v
theories/SafeEmitter_Once.v
theories/SafeEmitter_Props.v
theories/UnsafeEmitters_Model.v
theories/UnsafeEmitters_Spec.v
theories/UnsafeEmitters_Proofs.v
theories/UnsafeEmitters_Props.v
theories/Subscriber_Model.v
theories/Subscriber_Spec.v
theories/Subscriber_Proofs.v
theories/Subscriber_Props.v
theories/CallbackHandler_Model.v
theories/CallbackHandler_Spec.v
theories/CallbackHandler_Proofs.v
theories/CallbackHandler_Props.v
theories/CacheListener_Model.v
theories/CacheListener_Props.v
theories/SafeQueue_Model.v
theories/SafeQueue_Spec.v
theories/SafeQueue_Proofs.v
theories/SafeQueue_Props.v
theories/MemPipe_Model.v
theories/MemPipe_Proofs.v
theories/MemPipe_Props.v
theories/Poller_Model.v
theories/Poller_Proofs.v
theories/Poller_Props.v
theories/MultiRing_Model.v
theories/MultiRing_Proofs.v
theories/MultiRing_Spec.v
theories/MultiRing_Log.v
theories/MultiRing_Wrap.v
theories/MultiRing_Live.v
theories/MultiRing_Props.v
theories/SingleRing_Model.v
theories/SingleRing_Spec.v
theories/SingleRing_Proofs.v
theories/SingleRing_Run.v
theories/SingleRing_Content.v
theories/SingleRing_Props.v
theories/Halt_Model.v
theories/Halt_Proofs.v
theories/Halt_Live.v
theories/Halt_Props.v
theories/StateMachine_Model.v
theories/StateMachine_Spec.v
theories/StateMachine_Proofs.v
theories/StateMachine_Props.v
theories/Config_Model.v
theories/Config_Props.v
theories/ConfigFile_Model.v
theories/ConfigFile_Props.v
theories/SafeEmitter_Stats.v
theories/SafeQueue_Swap.v
theories/EventLoop_Model.v
theories/EventLoop_Spec.v
theories/EventLoop_Proofs.v
theories/EventLoop_Calls.v
theories/EventLoop_Every.v
theories/EventLoop_Acct.v
theories/EventLoop_Order.v
theories/EventLoop_Live.v
theories/EventLoop_Props.v
theories/EventLoopLife_Model.v
theories/EventLoopLife_Props.v
theories/Provider_Model.v
theories/Provider_Props.v
theories/Container_Model.v
theories/Container_Props.v
theories/ManagedService_Model.v
theories/ManagedService_Props.v
theories/Socket_Model.v
theories/Socket_Props.v
theories/SocketClose_Props.v
theories/ZmqEnv_Model.v
theories/ZmqEnv_Props.v
theories/Mapper_Model.v
theories/Mapper_Props.v
theories/ZmqChannel_Model.v
theories/ZmqChannel_Props.v
theories/ZmqLife_Model.v
theories/ZmqLife_Props.v
theories/Scheduler_Model.v
theories/Scheduler_Props.v
theories/Reentrancy_Model.v
theories/Reentrancy_Props.v
theories/Gating_Model.v
theories/Gating_Props.v
theories/Stop_Props.v
theories/NoOp_Model.v
theories/NoOp_Props.v
theories/ConcPipe_Model.v
theories/ConcPipe_Props.v
theories/SocketOpen_Model.v
theories/SocketOpen_Props.v
theories/ZmqDispatch_Model.v
theories/ZmqDispatch_Props.v
theories/RingUtil_Model.v
theories/RingUtil_Props.v
theories/PhasedBackoff_Model.v
theories/PhasedBackoff_Props.v
theories/WeakMem.v
theories/WeakSingle_Model.v
theories/WeakSingle_Props.v
theories/WeakMulti_Model.v
theories/WeakMulti_Props.v
theories/LfsWeak_Model.v
theories/LfsWeak_Props.v
theories/WaitMany_Model.v
theories/WaitMany_Props.v
theories/PoolFinal_Props.v
theories/Forward_Model.v
theories/Forward_Spec.v
theories/Forward_Props.v
theories/Forward_Thms.v
theories/Forward_Refute.v
theories/ElNet_Model.v
theories/ElNet_Spec.v
theories/ElNet_Props.v
theories/ElNet_Thms.v
theories/LoopSched_Model.v
theories/LoopSched_Props.v
theories/LockFreeStack_Overlap.v
theories/ContainerConc_Model.v
theories/ContainerConc_Props.v
theories/Destroy_Model.v
theories/Destroy_Props.v
theories/EventLife_Model.v
theories/EventLife_Props.v
theories/SafeQueue_Live.v
theories/GatingVec_Model.v
theories/GatingVec_Spec.v
theories/GatingVec_Props.v
theories/MuxPub_Model.v
theories/MuxPub_Spec.v
theories/MuxPub_Props.v
theories/MuxProv_Model.v
theories/MuxProv_Props.v
theories/LfsWeak_Calls.v
theories/ElDispatch_Model.v
theories/ElDispatch_Props.v
theories/PoolCount_Model.v
theories/PoolCount_Props.v
theories/SpinWait_Model.v
theories/SpinWait_Props.v
theories/SchedDispatch_Model.v
theories/SchedDispatch_Props.v
theories/CallbackLock_Props.v
theories/PollerRunning_Props.v
theories/PollerDestroy_Props.v
theories/SingleStats_Props.v
theories/StatsLife_Model.v
theories/StatsLife_Props.v
theories/SafeEmitter_Record.v
theories/ZmqStop_Props.v
theories/SingleRing_Fail.v
theories/LfsCtor_Model.v
theories/LfsCtor_Props.v
theories/SmPair_Model.v
theories/SmPair_Props.v
theories/ZmqBuf_Model.v
theories/ZmqBuf_Props.v
theories/UnsafeContainer_Props.v
theories/WeakLfs_Model.v
theories/WeakLfs_Props.v
theories/SocketServer_Model.v
theories/SocketServer_Props.v
theories/SingleConc_Model.v
theories/SingleConc_Props.v
