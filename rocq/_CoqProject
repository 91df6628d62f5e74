-Q theories Verif
theories/Common.v
theories/Text.v
theories/HashModel.v
theories/HashTable.v
theories/HashMapProofs.v
theories/HashSetProofs.v
theories/ProbesModel.v
theories/ProbesProofs.v
theories/Prop_Hash.v
theories/Bits.v
theories/BitsFacts.v
theories/FloatReal.v
theories/FloatValue.v
theories/FloatOps.v
theories/DoubleRound.v
theories/StdlibModel.v
theories/VprecModel.v
theories/VprecRound.v
theories/VprecValue.v
theories/VprecDenormal.v
theories/VprecMain.v
theories/VprecProps.v
theories/VprecConfig.v
theories/VprecOps.v
theories/VprecAbs.v
theories/StdlibProofs.v
theories/Prop_Vprec.v
theories/Prop_Stdlib.v
theories/RngModel.v
theories/RngProofs.v
theories/Prop_Rng.v
theories/McaModel.v
theories/McaProofs.v
theories/McaOps.v
theories/Prop_Mca.v
theories/BitmaskModel.v
theories/BitmaskProofs.v
theories/Prop_Bitmask.v
theories/CancelModel.v
theories/CancelProofs.v
theories/Prop_Cancel.v
theories/DDModel.v
theories/DDProofs.v
theories/DDStoch.v
theories/DDSample.v
theories/DDCache.v
theories/Prop_DD.v
theories/IeeeModel.v
theories/IeeeProofs.v
theories/Prop_Ieee.v
theories/WrapModel.v
theories/WrapParseProofs.v
theories/WrapProofs.v
theories/DdebugModel.v
theories/DdebugProofs.v
theories/FuncModel.v
theories/FuncProofs.v
theories/Prop_Wrap.v
theories/VfiModel.v
theories/VfiProofs.v
theories/VfiFile.v
theories/Prop_Vfi.v
theories/PrecexpModel.v
theories/PrecexpProofs.v
theories/PrecexpFile.v
theories/Prop_Precexp.v
theories/SelectModel.v
theories/SelectProofs.v
theories/Prop_Select.v
theories/InstrModel.v
theories/InstrProofs.v
theories/Prop_Instr.v
theories/ConfigModel.v
theories/Prop_Config.v
theories/ModuleModel.v
theories/ModuleProofs.v
theories/Prop_Module.v
theories/FuncPassModel.v
theories/FuncPassProofs.v
theories/FuncPassRun.v
theories/Prop_FuncPass.v
theories/CiModel.v
theories/CiHex.v
theories/CiReader.v
theories/CiTrunc.v
theories/CiRuns.v
theories/Prop_Ci.v
theories/DriverModel.v
theories/DriverRun.v
theories/DriverTrace.v
theories/DriverWords.v
theories/Prop_Driver.v
theories/PrismModel.v
theories/PrismProofs.v
theories/Prop_Prism.v
theories/Prop_DriverPrism.v
theories/DDMainModel.v
theories/DDMainProofs.v
theories/Prop_DDMain.v
theories/StochRound.v
theories/Prop_StochRound.v
theories/HandlerModel.v
theories/Prop_Handler.v
theories/LogModel.v
theories/Prop_Log.v
theories/VtkModel.v
theories/Prop_Vtk.v
theories/ReportModel.v
theories/ReportProofs.v
theories/Prop_Report.v
theories/Prop_ReportServe.v
theories/ReportViews.v
theories/Prop_ReportViews.v
theories/ExpReportModel.v
theories/ExpReportProofs.v
theories/Prop_ExpReport.v
theories/ConcHashModel.v
theories/ConcHashProofs.v
theories/Prop_ConcHash.v
theories/SetupModel.v
theories/SetupProofs.v
theories/Prop_Setup.v
theories/ProbesLifeModel.v
theories/Prop_ProbesLife.v
theories/StackThreadsModel.v
theories/StackThreadsProofs.v
theories/Prop_StackThreads.v
theories/HashThreadsModel.v
theories/HashThreadsProofs.v
theories/Prop_HashThreads.v
