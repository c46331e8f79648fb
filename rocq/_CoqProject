-Q theories Verif
theories/ActionSpec.v
theories/AgainProps.v
theories/BuildModel.v
theories/BuildProof.v
theories/BuildProps.v
theories/BuildSpec.v
theories/BusCtx.v
theories/BusCtxProof.v
theories/BusCtxProps.v
theories/BusLive.v
theories/BusLive2.v
theories/BusLive3.v
theories/BusLive4.v
theories/BusLive5.v
theories/BusLiveProps.v
theories/BusLiveProps2.v
theories/BusLiveSpec.v
theories/BusLiveSpec2.v
theories/BusLockProof.v
theories/BusLockProps.v
theories/BusModel.v
theories/BusPauseProof.v
theories/BusPauseProps.v
theories/BusProof.v
theories/BusProps.v
theories/BusSpec.v
theories/BusTx.v
theories/BusTx2.v
theories/BusTx3.v
theories/BusTxProps.v
theories/BusTxSpec.v
theories/BusWorld.v
theories/BusWorldProof.v
theories/BusWorldProof2.v
theories/BusWorldProof3.v
theories/BusWorldProof4.v
theories/BusWorldProof5.v
theories/BusWorldProof6.v
theories/BusWorldProof7.v
theories/BusWorldProps.v
theories/BusWorldSpec.v
theories/CleanModel.v
theories/CleanProof.v
theories/CleanProof2.v
theories/CleanProps.v
theories/CleanSpec.v
theories/CommandProps.v
theories/CronModel.v
theories/CronProps.v
theories/DbLockModel.v
theories/DbLockProof.v
theories/DbLockProof2.v
theories/DbLockProof3.v
theories/DbLockProof4.v
theories/DbLockProof5.v
theories/DbLockProps.v
theories/DbLockSpec.v
theories/DbSpec.v
theories/DeleteProps.v
theories/DeployModel.v
theories/DeployProps.v
theories/DiffModel.v
theories/DiffProof.v
theories/DiffProps.v
theories/DiffSpec.v
theories/EffectModel.v
theories/EffectProof.v
theories/EffectProof2.v
theories/EffectProof3.v
theories/EffectProps.v
theories/EffectSpec.v
theories/EngineModel.v
theories/EngineProof1.v
theories/EngineProof10.v
theories/EngineProof11.v
theories/EngineProof12.v
theories/EngineProof13.v
theories/EngineProof2.v
theories/EngineProof3.v
theories/EngineProof4.v
theories/EngineProof5.v
theories/EngineProof6.v
theories/EngineProof7.v
theories/EngineProof8.v
theories/EngineProof9.v
theories/EngineProps.v
theories/EventSpec.v
theories/ExecEngine.v
theories/ExecModel.v
theories/ExecProof.v
theories/ExecProps.v
theories/ExecSpec.v
theories/FlowEngine.v
theories/FlowModel.v
theories/FlowProof.v
theories/FlowProps.v
theories/FlowSpec.v
theories/GoBase.v
theories/GraphModel.v
theories/GraphProof.v
theories/GraphProof2.v
theories/GraphProof3.v
theories/GraphProof4.v
theories/GraphProof5.v
theories/GraphProps.v
theories/GraphSpec.v
theories/HttpModel.v
theories/HttpProps.v
theories/HttpSpec.v
theories/InterModel.v
theories/InterProof.v
theories/InterProof2.v
theories/InterProps.v
theories/InterSpec.v
theories/KeysModel.v
theories/KeysProof.v
theories/KeysProof2.v
theories/KeysProof3.v
theories/KeysProps.v
theories/LeaseModel.v
theories/LeaseProps.v
theories/LeaseSpec.v
theories/LoadProps.v
theories/LoadingProps.v
theories/LockPanic.v
theories/LockProps.v
theories/LoopModel.v
theories/LoopProps.v
theories/MemBusModel.v
theories/MemBusProof.v
theories/MemBusProps.v
theories/MemBusSpec.v
theories/MoveProof.v
theories/MoveSpec.v
theories/MysqlRun.v
theories/MysqlRunProof.v
theories/MysqlRunProps.v
theories/OptModel.v
theories/OptProof.v
theories/OptProof2.v
theories/OptProps.v
theories/OptSpec.v
theories/OrderProof.v
theories/OrderProps.v
theories/OrderSpec.v
theories/OuterModel.v
theories/OuterProof.v
theories/OuterProof2.v
theories/OuterProps.v
theories/OutputProps.v
theories/OutputSpec.v
theories/RedisModel.v
theories/RedisProps.v
theories/RedisSpec.v
theories/RepoProof.v
theories/RepoProps.v
theories/RetryProps.v
theories/RetrySpec.v
theories/RoundTrip.v
theories/RouterModel.v
theories/RouterProps.v
theories/SaleCmdProps.v
theories/SaleCreate.v
theories/SaleEngine.v
theories/SaleModel.v
theories/SaleProps.v
theories/SaleSpec.v
theories/SaveProps.v
theories/SerialModel.v
theories/SerialProof.v
theories/SerialProps.v
theories/SerialSpec.v
theories/SetOrder.v
theories/StageModel.v
theories/StageProof.v
theories/StageProof2.v
theories/StageProof3.v
theories/StageProof4.v
theories/StageProps.v
theories/SyncProof.v
theories/SyncProof2.v
theories/SyncProps.v
theories/SyncSpec.v
theories/TimerModel.v
theories/TimerProof.v
theories/TimerProof2.v
theories/TimerProps.v
theories/TimerSpec.v
theories/TxModel.v
theories/TxProof.v
theories/TxProps.v
theories/TxSpec.v
