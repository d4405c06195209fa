-Q theories Verif
theories/Machine.v
theories/WireModel.v
theories/WireSpec.v
theories/WireProofs.v
theories/WireDecode.v
theories/WireEncode.v
theories/WireFacts.v
theories/WireProps.v
theories/MpscModel.v
theories/MpscSpec.v
theories/MpscProofs.v
theories/MpscProps.v
theories/UnboundedModel.v
theories/UnboundedSpec.v
theories/UnboundedProofs.v
theories/UnboundedProps.v
theories/FutureModel.v
theories/FutureSpec.v
theories/FutureProofs.v
theories/FutureProps.v
theories/ChainModel.v
theories/ChainSpec.v
theories/ChainProofs.v
theories/ChainProps.v
theories/ActorModel.v
theories/ActorSpec.v
theories/ActorProofs.v
theories/ActorProps.v
theories/EventsModel.v
theories/EventsProps.v
theories/ActorExitProofs.v
theories/ActorExitProps.v
theories/CallModel.v
theories/CallSpec.v
theories/CallProofs.v
theories/CallTrace.v
theories/CallMain.v
theories/CallLive.v
theories/CallProps.v
theories/AddrModel.v
theories/AddrSpec.v
theories/AddrProofs.v
theories/AddrInv.v
theories/AddrRun.v
theories/AddrFacts.v
theories/AddrCrash.v
theories/AddrSolo.v
theories/AddrProps.v
theories/RegModel.v
theories/RegSpec.v
theories/RegProofs.v
theories/RegLimits.v
theories/RegLive.v
theories/RegSafe.v
theories/RegTrace.v
theories/RegProps.v
theories/LockModel.v
theories/LockSpec.v
theories/LockProofs.v
theories/LockProps.v
theories/CronModel.v
theories/CronSpec.v
theories/CronProofs.v
theories/CronProps.v
theories/MsgModel.v
theories/MsgSpec.v
theories/MsgProofs.v
theories/MsgProps.v
theories/UtilModel.v
theories/UtilSpec.v
theories/UtilProps.v
theories/TokenModel.v
theories/TokenProps.v
theories/ClientModel.v
theories/ClientSpec.v
theories/ClientProofs.v
theories/ClientTrace.v
theories/ClientProps.v
theories/ReporterModel.v
theories/ReporterSpec.v
theories/ReporterProofs.v
theories/ReporterProps.v
theories/TaskModel.v
theories/TaskSpec.v
theories/TaskProofs.v
theories/TaskLive.v
theories/TaskProps.v
theories/TimerModel.v
theories/TimerSpec.v
theories/TimerProofs.v
theories/TimerLive.v
theories/TimerProps.v
theories/ReenterModel.v
theories/ReenterSpec.v
theories/ReenterProofs.v
theories/ReenterLive.v
theories/ReenterProps.v
theories/SysModel.v
theories/SysSpec.v
theories/SysProofs.v
theories/SysLive.v
theories/SysProps.v
theories/PubsubModel.v
theories/PubsubSpec.v
theories/PubsubProofs.v
theories/PubsubLive.v
theories/PubsubMore.v
theories/PubsubProps.v
theories/PubsubGoneProps.v
theories/TopicModel.v
theories/TopicSpec.v
theories/TopicProofs.v
theories/TopicProps.v
theories/LoaderModel.v
theories/LoaderSpec.v
theories/LoaderProofs.v
theories/LoaderProps.v
theories/MachineMore.v
theories/ServiceModel.v
theories/ServiceSpec.v
theories/ServiceProofs.v
theories/ServiceMore.v
theories/ServiceProps.v
theories/ShutModel.v
theories/ShutSpec.v
theories/ShutProofs.v
theories/ShutMore.v
theories/ShutLive.v
theories/ShutProps.v
theories/SpanModel.v
theories/SpanSpec.v
theories/SpanProofs.v
theories/SpanTrace.v
theories/SpanProps.v
theories/ContextModel.v
theories/ContextSpec.v
theories/ContextProofs.v
theories/ContextProps.v
theories/RedisModel.v
theories/RedisSpec.v
theories/RedisProps.v
theories/LogModel.v
theories/LogSpec.v
theories/LogProps.v
theories/AcceptModel.v
theories/AcceptSpec.v
theories/AcceptProps.v
theories/TracerModel.v
theories/TracerSpec.v
theories/TracerProps.v
theories/MgoModel.v
theories/MgoSpec.v
theories/MgoProps.v
theories/FileModel.v
theories/FileProps.v
theories/NodeModel.v
theories/NodeSpec.v
theories/NodeProps.v
theories/LockMoreProps.v
theories/ReenterMoreProps.v
theories/WgModel.v
theories/WgSpec.v
theories/WgProofs.v
theories/WgProps.v
theories/RoundModel.v
theories/RoundSpec.v
theories/RoundProps.v
theories/DialModel.v
theories/DialSpec.v
theories/DialProps.v
theories/PsoptModel.v
theories/PsoptSpec.v
theories/PsoptProps.v
theories/MapsModel.v
theories/MapsSpec.v
theories/MapsProofs.v
theories/MapsProps.v
theories/ScanModel.v
theories/ScanSpec.v
theories/ScanProofs.v
theories/ScanProps.v
theories/WrapModel.v
theories/WrapSpec.v
theories/WrapProofs.v
theories/WrapProps.v
theories/TccModel.v
theories/TccSpec.v
theories/TccProofs.v
theories/TccProps.v
theories/NestModel.v
theories/NestSpec.v
theories/NestProofs.v
theories/NestProps.v
theories/MsgMoreSpec.v
theories/MsgMoreProps.v
theories/CalcModel.v
theories/CalcSpec.v
theories/CalcProofs.v
theories/CalcProps.v
theories/SpreadModel.v
theories/SpreadSpec.v
theories/SpreadProofs.v
theories/SpreadProps.v
theories/MutualModel.v
theories/MutualSpec.v
theories/MutualProofs.v
theories/MutualProps.v
