-Q theories Verif
theories/ApiCall.v
theories/ApiMar.v
theories/ApiModel.v
theories/ApiProofs.v
theories/ApiProps.v
theories/ApiRecv.v
theories/ApiSpec.v
theories/AsModel.v
theories/AsProofs.v
theories/AsProps.v
theories/AsSpec.v
theories/AstModel.v
theories/AstProofs.v
theories/AtModel.v
theories/AtProps.v
theories/BufModel.v
theories/BufProofs.v
theories/BufProps.v
theories/BufSpec.v
theories/CallTModel.v
theories/CallTProps.v
theories/CallTSpec.v
theories/ClModel.v
theories/ClProofs.v
theories/ClProps.v
theories/ClSpec.v
theories/CmModel.v
theories/CmProps.v
theories/CmSpec.v
theories/ConfModel.v
theories/ConfProofs.v
theories/ConfProps.v
theories/ConfSpec.v
theories/CtxModel.v
theories/CtxProofs.v
theories/CtxProps.v
theories/CtxRef.v
theories/CtxSpec.v
theories/CuModel.v
theories/CuProofs.v
theories/CuProps.v
theories/CuSpec.v
theories/CyModel.v
theories/CyProps.v
theories/CySpec.v
theories/DecFacts.v
theories/DecModel.v
theories/DurModel.v
theories/DurProofs.v
theories/DurSpec.v
theories/EncFacts.v
theories/EncModel.v
theories/EqFloat.v
theories/EqModel.v
theories/EqProofs.v
theories/EqProps.v
theories/EqSpec.v
theories/ErrModel.v
theories/ErrProofs.v
theories/ErrProps.v
theories/ErrSpec.v
theories/EtModel.v
theories/EtProps.v
theories/EtSpec.v
theories/EwModel.v
theories/EwProps.v
theories/EwSpec.v
theories/ExModel.v
theories/ExProps.v
theories/ExRace.v
theories/ExSpec.v
theories/FcModel.v
theories/FcProps.v
theories/FcSpec.v
theories/FlModel.v
theories/FlProofs.v
theories/FlProps.v
theories/FlRead.v
theories/FlRound.v
theories/FlSpec.v
theories/FlText.v
theories/FlWrite.v
theories/FrModel.v
theories/FrProofs.v
theories/FrProps.v
theories/FrRead.v
theories/FrRun.v
theories/FrSpec.v
theories/FrTorn.v
theories/GvModel.v
theories/GvProofs.v
theories/GvProps.v
theories/HeapProofs.v
theories/HttpModel.v
theories/HttpProofs.v
theories/HttpProps.v
theories/HttpSpec.v
theories/IfModel.v
theories/IfProofs.v
theories/IfProps.v
theories/IfSpec.v
theories/IsoModel.v
theories/IsoProofs.v
theories/IsoProps.v
theories/IsoSpec.v
theories/JrModel.v
theories/JrProps.v
theories/JrSpec.v
theories/JsonFacts.v
theories/JsonModel.v
theories/JsonParse.v
theories/JsonProofs.v
theories/JsonProps.v
theories/JsonSpec.v
theories/KvModel.v
theories/KvProofs.v
theories/KvProps.v
theories/KvSpec.v
theories/LgModel.v
theories/LgProofs.v
theories/LgProps.v
theories/LgSpec.v
theories/ListsModel.v
theories/ListsProofs.v
theories/ListsProps.v
theories/ListsSpec.v
theories/LkModel.v
theories/LkProps.v
theories/LkSpec.v
theories/LockModel.v
theories/LockProofs.v
theories/LockProps.v
theories/LockSpec.v
theories/LogModel.v
theories/LogProofs.v
theories/LogProps.v
theories/LogSpec.v
theories/LruModel.v
theories/LruProofs.v
theories/LruProps.v
theories/LruSpec.v
theories/LsModel.v
theories/LsProofs.v
theories/LsProps.v
theories/LsSpec.v
theories/MarFacts.v
theories/MarModel.v
theories/MarNum.v
theories/MarOrder.v
theories/MarProofs.v
theories/MarProps.v
theories/MarSpec.v
theories/MarStruct.v
theories/McModel.v
theories/McProps.v
theories/McSpec.v
theories/MemModel.v
theories/MemProofs.v
theories/MemProps.v
theories/MemSpec.v
theories/MmModel.v
theories/MmProps.v
theories/MmSpec.v
theories/MpModel.v
theories/MpProps.v
theories/NdModel.v
theories/NdProps.v
theories/NdSpec.v
theories/OMapModel.v
theories/OMapProofs.v
theories/OMapProps.v
theories/OMapSpec.v
theories/OaExample.v
theories/OaModel.v
theories/OaProofs.v
theories/OaProps.v
theories/OaShape.v
theories/OaSpec.v
theories/OaTerm.v
theories/OjModel.v
theories/OjProofs.v
theories/OjProps.v
theories/OjSpec.v
theories/PbModel.v
theories/PbProps.v
theories/PbSpec.v
theories/PermModel.v
theories/PermProofs.v
theories/PipeModel.v
theories/PipeProofs.v
theories/PipeProps.v
theories/PipeSpec.v
theories/Prelude.v
theories/PreludeFacts.v
theories/PromModel.v
theories/PromProofs.v
theories/PromProps.v
theories/PromSpec.v
theories/PxMetrics.v
theories/PxModel.v
theories/PxProofs.v
theories/PxProps.v
theories/PxSpec.v
theories/QuoteFacts.v
theories/QuoteModel.v
theories/RdModel.v
theories/RdProofs.v
theories/RdProps.v
theories/RdSpec.v
theories/ReqModel.v
theories/ReqProofs.v
theories/ReqProps.v
theories/ReqSpec.v
theories/RfcProofs.v
theories/RfcProps.v
theories/RfcSpec.v
theories/RfcString.v
theories/RgModel.v
theories/RgProps.v
theories/RgSpec.v
theories/RlProps.v
theories/RlSpec.v
theories/RqModel.v
theories/RqProps.v
theories/RqSpec.v
theories/RtClean.v
theories/RtModel.v
theories/RtProofs.v
theories/RtProps.v
theories/RtSpec.v
theories/RwModel.v
theories/RwProps.v
theories/RwSpec.v
theories/SMapModel.v
theories/SMapProofs.v
theories/SMapProps.v
theories/SMapSpec.v
theories/ScModel.v
theories/ScProps.v
theories/ScSpec.v
theories/SfModel.v
theories/SfProps.v
theories/SfSpec.v
theories/ShutModel.v
theories/ShutProofs.v
theories/ShutProps.v
theories/ShutSpec.v
theories/SoModel.v
theories/SoProofs.v
theories/SoProps.v
theories/SoSpec.v
theories/StkModel.v
theories/StkProps.v
theories/StkSpec.v
theories/SwModel.v
theories/SwProps.v
theories/SwSpec.v
theories/TaModel.v
theories/TaProofs.v
theories/TaProps.v
theories/TcModel.v
theories/TcProofs.v
theories/TcProps.v
theories/TcSpec.v
theories/TcWire.v
theories/TimeCal.v
theories/TimeModel.v
theories/TimeProofs.v
theories/TimeProps.v
theories/TimeSpec.v
theories/TqModel.v
theories/TqProofs.v
theories/TqProps.v
theories/UfEnum.v
theories/UfModel.v
theories/UfProofs.v
theories/UfProps.v
theories/UfSpec.v
theories/UmModel.v
theories/UmProps.v
theories/UmSpec.v
theories/UrModel.v
theories/UrProps.v
theories/UrSpec.v
theories/Utf8Facts.v
theories/Utf8Model.v
theories/WdModel.v
theories/WdProps.v
theories/WdSpec.v
theories/WhModel.v
theories/WhProofs.v
theories/WhProps.v
theories/WhSpec.v
theories/WkModel.v
theories/WkProps.v
theories/WkSpec.v
theories/WlProps.v
theories/WlSpec.v
theories/WsBad.v
theories/WsModel.v
theories/WsProofs.v
theories/WsProps.v
theories/WsReg.v
theories/WsRpc.v
theories/WsSpec.v
theories/XtModel.v
theories/XtProps.v
theories/XtSpec.v
