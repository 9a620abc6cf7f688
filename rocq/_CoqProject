-Q theories Verif
theories/GoBase.v
theories/BaseLemmas.v
theories/WireModel.v
theories/WireSpec.v
theories/WireProofs.v
theories/WireProps.v
theories/QnqModel.v
theories/QnqSpec.v
theories/QnqProofs.v
theories/QnqProps.v
theories/GrpcModel.v
theories/GrpcSpec.v
theories/GrpcProofs.v
theories/GrpcProps.v
theories/MmmModel.v
theories/MmmSpec.v
theories/MmmProofs.v
theories/MmmStack.v
theories/MmmProps.v
theories/BitModel.v
theories/BitSpec.v
theories/BitProofs.v
theories/BitProps.v
theories/KvsModel.v
theories/KvsSpec.v
theories/KvsProofs.v
theories/KvsProps.v
theories/SqlRamModel.v
theories/SqlRamSpec.v
theories/SqlRamProofs.v
theories/SqlConcModel.v
theories/SqlConcProofs.v
theories/SqlRamProps.v
theories/SqlRowModel.v
theories/SqlRowSpec.v
theories/SqlRowProofs.v
theories/SqlRowProps.v
theories/SockModel.v
theories/SockSpec.v
theories/SockProofs.v
theories/SockProps.v
theories/MuxModel.v
theories/MuxSpec.v
theories/MuxProofs.v
theories/MuxProps.v
theories/RestModel.v
theories/RestSpec.v
theories/RestProofs.v
theories/RestCall.v
theories/RestProps.v
theories/JrpcModel.v
theories/JrpcSpec.v
theories/JrpcProofs.v
theories/JrpcText.v
theories/JrpcSim.v
theories/JrpcRound.v
theories/JrpcMore.v
theories/JrpcProps.v
theories/JrpcReadSpec.v
theories/JrpcRead.v
theories/JrpcReadProps.v
theories/XyzModel.v
theories/XyzSpec.v
theories/XyzProofs.v
theories/XyzUnion.v
theories/XyzJson.v
theories/XyzProps.v
theories/FfiModel.v
theories/FfiSpec.v
theories/FfiProofs.v
theories/FfiApi.v
theories/FfiProps.v
theories/ViaModel.v
theories/ViaSpec.v
theories/ViaProps.v
theories/RpcModel.v
theories/RpcSpec.v
theories/RpcProps.v
theories/AsmModel.v
theories/AsmSpec.v
theories/AsmProps.v
theories/ArmModel.v
theories/ArmSpec.v
theories/ArmProofs.v
theories/ArmProps.v
theories/ArmBits.v
theories/ArmBitProps.v
theories/PairModel.v
theories/PairSpec.v
theories/PairProps.v
theories/GoText.v
theories/CmdlModel.v
theories/CmdlSpec.v
theories/CmdlProps.v
theories/CmdlPack.v
theories/CmdlRun.v
theories/ApiModel.v
theories/ApiSpec.v
theories/ApiProps.v
theories/ApiStruct.v
theories/ApiPath.v
theories/HostModel.v
theories/HostSpec.v
theories/HostProps.v
theories/HostWire.v
theories/XrayModel.v
theories/XrayProps.v
theories/FmtsModel.v
theories/FmtsProps.v
theories/DataModel.v
theories/DataProps.v
theories/WasmModel.v
theories/WasmProps.v
theories/WasmRun.v
theories/CtagModel.v
theories/CtagProps.v
theories/CtagRun.v
theories/CallModel.v
theories/CallProps.v
theories/CallRun.v
theories/DocsModel.v
theories/DocsSpec.v
theories/DocsProps.v
theories/DocsTerm.v
theories/DocsValid.v
theories/DocsRun.v
theories/DocsOps.v
theories/EscModel.v
theories/EscGraph.v
theories/EscSpec.v
theories/EscSound.v
theories/EscWrong.v
theories/ZigModel.v
theories/ZigParse.v
theories/ZigExpr.v
theories/ZigStmtModel.v
theories/ZigStmtParse.v
theories/ZigStmtFuel.v
theories/ZigStmt.v
theories/ZigStmtStop.v
theories/ZigStmtProps.v
theories/ZigLitModel.v
theories/ZigLit.v
theories/ZigNameModel.v
theories/ZigName.v
theories/MimeModel.v
theories/MimeText.v
theories/MimeForm.v
theories/XerrModel.v
theories/Xerr.v
theories/DenoModel.v
theories/Deno.v
theories/BackModel.v
theories/Back.v
theories/SdkModel.v
theories/Sdk.v
theories/EgModel.v
theories/Eg.v
theories/HandModel.v
theories/Hand.v
theories/ZigCallModel.v
theories/ZigCall.v
theories/SqlDbModel.v
theories/SqlDbSpec.v
theories/SqlDbProofs.v
theories/SqlMapProofs.v
theories/SqlDb.v
theories/ZigChanModel.v
theories/ZigChan.v
theories/ZigTypeModel.v
theories/ZigTypeSpec.v
theories/ZigType.v
theories/CorsModel.v
theories/CorsSpec.v
theories/Cors.v
theories/HeaderModel.v
theories/Header.v
theories/ZigSliceModel.v
theories/ZigSliceSpec.v
theories/ZigSlice.v
theories/ZigAssignModel.v
theories/ZigAssignSpec.v
theories/ZigAssign.v
theories/ZigDeferModel.v
theories/ZigDeferSpec.v
theories/ZigDefer.v
theories/SqlSearchModel.v
theories/SqlSearchSpec.v
theories/SqlSearch.v
theories/ZigCompModel.v
theories/ZigCompSpec.v
theories/ZigComp.v
theories/ZigRangeModel.v
theories/ZigRangeSpec.v
theories/ZigRange.v
theories/ZigArrModel.v
theories/ZigArrSpec.v
theories/ZigArr.v
theories/ZigSelModel.v
theories/ZigSelSpec.v
theories/ZigSel.v
theories/ZigIfaceModel.v
theories/ZigIfaceSpec.v
theories/ZigIface.v
theories/RestFormModel.v
theories/RestForm.v
theories/ZigPrintModel.v
theories/ZigPrint.v
theories/BinTagModel.v
theories/BinTag.v
