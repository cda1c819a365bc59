-Q theories Verif

theories/NodeModel.v
theories/NodeSpec.v
theories/NodeProofs.v
theories/NodeProps.v
theories/ExecModel.v
theories/ExecProofs.v
theories/ExecProofs2.v
theories/ExecProofs3.v
theories/ExecSpec.v
theories/ExecProofs4.v
theories/ExecProofs5.v
theories/ExecProofs6.v
theories/ExecProofs7.v
theories/ExecBatch.v
theories/ExecTerm.v
theories/ExecLimbo.v
theories/ExecExamples.v
theories/ExecProps.v
theories/ExecProps2.v
theories/QueueModel.v
theories/QueueSpec.v
theories/QueueProofs.v
theories/QueueProps.v
theories/QueueExec.v
theories/ValueModel.v
theories/CodecProofs.v
theories/CodecProps.v
theories/OrderProps.v
theories/OpModel.v
theories/OpSpec.v
theories/OpProps.v
theories/CmpProps.v
theories/ReservableModel.v
theories/ReservableProps.v
theories/VarModel.v
theories/VarProps.v
theories/ArrayProps.v
theories/RealModel.v
theories/RealProofs.v
theories/CacheModel.v
theories/CacheSpec.v
theories/CacheProofs.v
theories/CacheProofs2.v
theories/CacheFresh.v
theories/CacheProofs3.v
theories/CacheProofs4.v
theories/CacheProofs5.v
theories/CacheProofs6.v
theories/CacheProofs7.v
theories/CacheProps.v
theories/CacheTol.v
theories/CacheTol2.v
theories/CacheTol3.v
theories/CacheTol4.v
theories/RealErr.v
theories/CacheTolProps.v
theories/NotifyModel.v
theories/NotifySpec.v
theories/NotifyProofs.v
theories/NotifyProofs2.v
theories/NotifyProps.v
theories/CommandModel.v
theories/CommandProps.v
theories/ArbiterModel.v
theories/ArbiterSpec.v
theories/ArbiterProofs.v
theories/ArbiterProps.v
theories/InputModel.v
theories/InputSpec.v
theories/InputProofs.v
theories/InputProofs2.v
theories/InputProps.v
theories/AppModel.v
theories/AppSpec.v
theories/AppProofs.v
theories/AppProofs2.v
theories/AppProofs3.v
theories/AppProofs4.v
theories/AppProps.v
theories/TimeModel.v
theories/TimeSpec.v
theories/TimeProps.v
theories/MsgModel.v
theories/MsgSpec.v
theories/MsgProofs.v
theories/MsgProofs2.v
theories/MsgProofs3.v
theories/MsgProps.v
theories/FloatModel.v
theories/FloatSpec.v
theories/FloatProofs.v
theories/FloatBridge.v
theories/FloatProps.v
theories/AlarmModel.v
theories/AlarmSpec.v
theories/AlarmProofs.v
theories/AlarmProofs2.v
theories/AlarmProps.v
theories/MapModel.v
theories/MapSpec.v
theories/MapProps.v
theories/ScopeModel.v
theories/ScopeSpec.v
theories/ScopeProofs.v
theories/ScopeProps.v
theories/TypeModel.v
theories/TypeSpec.v
theories/TypeProofs.v
theories/TypeProofs2.v
theories/TypeProps.v
theories/UdpModel.v
theories/UdpSpec.v
theories/UdpProofs.v
theories/UdpProps.v
theories/UdpQueueModel.v
theories/UdpQueueSpec.v
theories/UdpQueueProofs.v
theories/UdpQueueProps.v
theories/UdpLoopModel.v
theories/UdpLoopSpec.v
theories/UdpLoopProofs.v
theories/UdpLoopProps.v
theories/LitModel.v
theories/LitSpec.v
theories/LitProofs.v
theories/LitProps.v
theories/PrintModel.v
theories/PrintProofs.v
theories/PrintProps.v
theories/DispModel.v
theories/DispSpec.v
theories/DispProps.v
theories/SimModel.v
theories/SimSpec.v
theories/SimProofs.v
theories/SimProps.v
theories/IpcModel.v
theories/IpcSpec.v
theories/IpcProofs.v
theories/IpcProps.v
theories/IpcAdModel.v
theories/IpcAdSpec.v
theories/IpcAdProofs.v
theories/IpcAdProps.v
theories/DeclModel.v
theories/DeclSpec.v
theories/DeclProofs.v
theories/DeclProofs2.v
theories/DeclProofs3.v
theories/DeclProofs4.v
theories/DeclProofs5.v
theories/DeclProps.v
theories/LaunchModel.v
theories/LaunchSpec.v
theories/LaunchProofs.v
theories/LaunchProps.v
theories/TestModel.v
theories/TestSpec.v
theories/TestProofs.v
theories/TestProps.v
theories/TestLitModel.v
theories/TestLitProps.v
theories/ArbFloatModel.v
theories/ArbFloatSpec.v
theories/ArbFloatProofs.v
theories/ArbFloatProps.v
theories/ResFileModel.v
theories/ResFileSpec.v
theories/ResFileProofs.v
theories/ResFileProps.v
theories/FinalModel.v
theories/FinalProps.v
theories/DebugModel.v
theories/DebugProps.v
theories/LuvSpec.v
theories/LuvModel.v
theories/LuvProps.v
theories/ScriptModel.v
theories/ScriptSpec.v
theories/ScriptProps.v
theories/AnalyzeModel.v
theories/AnalyzeSpec.v
theories/AnalyzeProps.v
theories/ElemModel.v
theories/ElemSpec.v
theories/ElemProps.v
