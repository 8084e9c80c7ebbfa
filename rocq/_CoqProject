-Q theories Verif
theories/Py.v
theories/Geom.v
theories/Cantor.v
theories/Block.v
theories/BGraph.v
theories/Surface.v
theories/Sched.v
theories/DGraph.v
theories/Sanity.v
theories/SpecGeom.v
theories/VecFacts.v
theories/CantorFacts.v
theories/GridFacts.v
theories/GridFacts2.v
theories/GridFacts3.v
theories/SubFacts.v
theories/GraphProps.v
theories/P_Graph.v
theories/SchedSpec.v
theories/SurfFacts.v
theories/SchedFacts.v
theories/SchedFacts2.v
theories/SafeFacts.v
theories/SchedProps.v
theories/PipeSpec.v
theories/PipeFacts.v
theories/DGFacts.v
theories/DGFacts2.v
theories/SchedExec.v
theories/PipeRun.v
theories/P_SchedCE.v
theories/P_Sched.v
theories/Serial.v
theories/SerialFacts.v
theories/P_Serial.v
theories/Expand.v
theories/P_Expand.v
theories/Tcp.v
theories/P_Tcp.v
theories/Ctx.v
theories/P_Ctx.v
theories/Client.v
theories/P_Client.v
theories/Conv.v
theories/P_Conv.v
theories/Server.v
theories/ServerFacts.v
theories/ServerSteps.v
theories/ServerIdle.v
theories/P_Server.v
theories/P_Server2.v
theories/P_ServerCE.v
theories/P_Outcome.v
theories/Pool.v
theories/P_Pool.v
theories/Freeze.v
theories/P_Freeze.v
theories/Monitor.v
theories/P_Monitor.v
theories/P_Notify.v
theories/Sys.v
theories/SysFacts.v
theories/SysMeasure.v
theories/SysLive.v
theories/SysFair.v
theories/SysTrace.v
theories/P_Sys.v
theories/P_SysEx.v
theories/P_SysCE.v
theories/Net.v
theories/NetFacts.v
theories/P_Net.v
theories/P_NetEx.v
theories/PoolGrow.v
theories/Whole.v
theories/WholeInv.v
theories/WholeEv.v
theories/WholeSrv.v
theories/WholeGrow.v
theories/WholeSim.v
theories/WholeStep.v
theories/WholeFair.v
theories/P_Whole.v
theories/P_WholeEx.v
theories/P_WholeCE.v
theories/PoolAll.v
theories/P_PoolFail.v
theories/WholeAny.v
theories/WholeAll.v
theories/WholeRun.v
theories/P_WholeAny.v
theories/TopInit.v
theories/Top.v
theories/P_Top.v
theories/P_TopEx.v
theories/TopFair.v
theories/P_TopFair.v
theories/P_TopFairEx.v
theories/WholeOwn.v
theories/P_WholeOwn.v
theories/P_WholeOwnEx.v
theories/P_Apart.v
theories/P_Resume.v
theories/TaskFn.v
theories/P_TaskFn.v
theories/P_Check.v
theories/P_Order.v
theories/P_Symbol.v
theories/P_Cause.v
theories/StateText.v
theories/P_State.v
theories/LogNames.v
theories/Setup.v
theories/P_LogNames.v
theories/P_Setup.v
theories/P_NetErr.v
theories/P_Gone.v
theories/P_Once.v
theories/P_One.v
theories/P_Good.v
theories/Replay.v
theories/Replay2.v
theories/Redirect.v
theories/P_Redirect.v
theories/Handlers.v
theories/P_Handlers.v
theories/P_Paths.v
theories/Released.v
theories/P_Released.v
theories/P_SerialAny.v
theories/P_Rerun.v
theories/Wire.v
theories/WireNet.v
theories/WireSim.v
theories/P_Wire.v
theories/WireLoss.v
theories/P_WireLoss.v
theories/WireFair.v
theories/P_WireEx.v
theories/P_WireFair.v
theories/P_WireFairEx.v
theories/WireAttr.v
theories/P_WireAttr.v
theories/WireTop.v
theories/P_WireTop.v
theories/P_WireTopEx.v
theories/P_WireOwn.v
theories/P_WireLossEx.v
theories/WireIntact.v
theories/P_WireIntact.v
theories/P_WireIntactEx.v
theories/WireTail.v
theories/P_WireTail.v
theories/LossTop.v
theories/P_LossTop.v
theories/P_LossTopEx.v
theories/P_LossRuns.v
theories/P_LossRunsEx.v
theories/P_LossOnce.v
theories/P_LossOnceEx.v
theories/Store.v
theories/StoreFacts.v
theories/P_Store.v
theories/P_StoreEx.v
theories/P_StoreSerial.v
theories/P_StoreSerialEx.v
theories/P_StoreLate.v
theories/P_StoreReach.v
