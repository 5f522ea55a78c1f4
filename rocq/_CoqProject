-Q theories Verif
theories/ArriveExamples.v
theories/ArriveMain.v
theories/ArriveSpec.v
theories/AttachExamples.v
theories/AttachFormats.v
theories/AttachLife.v
theories/AttachLive.v
theories/AttachMain.v
theories/AttachModel.v
theories/AttachProofs.v
theories/AttachRun.v
theories/Base.v
theories/BuildModel.v
theories/BuildProofs.v
theories/CalendarProofs.v
theories/ClockModel.v
theories/ClockProofs.v
theories/ClockSpec.v
theories/ConformBase.v
theories/Conform_Book.v
theories/Conform_Decoder.v
theories/Conform_Encode.v
theories/Conform_Log.v
theories/Conform_Misc.v
theories/Conform_Parser.v
theories/Conform_Snapshots.v
theories/Conform_TestUi.v
theories/Conform_Ui.v
theories/DecoderExamples.v
theories/DecoderModel.v
theories/DecoderPanic.v
theories/DecoderProofs.v
theories/DecoderUnsafe.v
theories/DeriveNative.v
theories/DeriveProofs.v
theories/DeriveShift.v
theories/DeviceExamples.v
theories/DeviceLive.v
theories/DeviceMain.v
theories/DeviceModel.v
theories/DeviceProofs.v
theories/DeviceRun.v
theories/DeviceSpec.v
theories/DisplayEnds.v
theories/DisplayExact.v
theories/DisplayExamples.v
theories/DisplayHints.v
theories/DisplayLayout.v
theories/DisplayModel.v
theories/DisplayProofs.v
theories/DisplayTotal.v
theories/EncodeExamples.v
theories/EncodeMain.v
theories/EncodeModel.v
theories/EncodeProofs.v
theories/EncodeSpec.v
theories/EncodeTop.v
theories/EnvFilterExamples.v
theories/EnvFilterMain.v
theories/EnvFilterModel.v
theories/EnvFilterProofs.v
theories/EnvFilterSpec.v
theories/ExpandExamples.v
theories/ExpandMain.v
theories/ExpandModel.v
theories/ExpandOnce.v
theories/ExpandProofs.v
theories/ExpandSpec.v
theories/FlagsExamples.v
theories/FlagsModel.v
theories/FlagsProofs.v
theories/FlagsSpec.v
theories/FormatSpec.v
theories/GrammarCases.v
theories/GrammarMain.v
theories/GrammarPanic.v
theories/GrammarProofs.v
theories/GrammarSpec.v
theories/HaltExamples.v
theories/HaltFormats.v
theories/HaltLive.v
theories/HaltMain.v
theories/HaltModel.v
theories/HaltProofs.v
theories/HaltRun.v
theories/HarnessExact.v
theories/HarnessExamples.v
theories/HarnessFaults.v
theories/HarnessMain.v
theories/HarnessModel.v
theories/HarnessProofs.v
theories/HarnessSpec.v
theories/HostEnds.v
theories/HostExamples.v
theories/HostModel.v
theories/HostProofs.v
theories/HostSpec.v
theories/ImplCode.v
theories/ImplExamples.v
theories/ImplMain.v
theories/ImplModel.v
theories/ImplProofs.v
theories/ImplSpec.v
theories/JsonDocument.v
theories/JsonExamples.v
theories/JsonProofs.v
theories/JsonScalars.v
theories/JsonSpec.v
theories/JsonValues.v
theories/LevelProofs.v
theories/LibTypesModel.v
theories/LinkDevice.v
theories/LinkExact.v
theories/LinkExamples.v
theories/LinkFormats.v
theories/LinkHost.v
theories/LinkLevels.v
theories/LinkMain.v
theories/LinkModel.v
theories/LinkProofs.v
theories/LinkRoom.v
theories/LinkSessions.v
theories/LinkSize.v
theories/LinkSpec.v
theories/LinkTable.v
theories/LocationAny.v
theories/LocationExamples.v
theories/LocationMain.v
theories/LocationModel.v
theories/LocationProofs.v
theories/LocationSpec.v
theories/LogFormatAccept.v
theories/LogFormatBuiltin.v
theories/LogFormatEnds.v
theories/LogFormatExamples.v
theories/LogFormatMain.v
theories/LogFormatModel.v
theories/LogFormatOnly.v
theories/LogFormatPanic.v
theories/LogFormatProofs.v
theories/LogFormatShow.v
theories/LogFormatSpec.v
theories/LogFormatText.v
theories/LoggerExamples.v
theories/LoggerMain.v
theories/LoggerModel.v
theories/LoggerProofs.v
theories/LoggerSpec.v
theories/MacroExact.v
theories/MacroExamples.v
theories/MacroModel.v
theories/MacroParse.v
theories/MacroProofs.v
theories/MacroSpec.v
theories/Numerals.v
theories/PanicExamples.v
theories/PanicModel.v
theories/PanicProofs.v
theories/PanicSpec.v
theories/ParserExamples.v
theories/ParserModel.v
theories/ParserMore.v
theories/ParserProofs.v
theories/PrepareProofs.v
theories/ProgramJson.v
theories/Prop_Arrive.v
theories/Prop_Attach.v
theories/Prop_Build.v
theories/Prop_Clock.v
theories/Prop_Decoder.v
theories/Prop_Device.v
theories/Prop_Display.v
theories/Prop_Encode.v
theories/Prop_EnvFilter.v
theories/Prop_Exact.v
theories/Prop_Expand.v
theories/Prop_Flags.v
theories/Prop_Formats.v
theories/Prop_Grammar.v
theories/Prop_Halt.v
theories/Prop_Harness.v
theories/Prop_Host.v
theories/Prop_Impl.v
theories/Prop_Json.v
theories/Prop_JsonDocument.v
theories/Prop_Link.v
theories/Prop_Location.v
theories/Prop_LogFormat.v
theories/Prop_Logger.v
theories/Prop_Macro.v
theories/Prop_Panic.v
theories/Prop_Parser.v
theories/Prop_Program.v
theories/Prop_Ranges.v
theories/Prop_Rtt.v
theories/Prop_Rzcobs.v
theories/Prop_Schema.v
theories/Prop_Sessions.v
theories/Prop_Sink.v
theories/Prop_Size.v
theories/Prop_Stream.v
theories/Prop_Suite.v
theories/Prop_Syntax.v
theories/Prop_Table.v
theories/Prop_Targets.v
theories/Prop_Text.v
theories/Prop_Weak.v
theories/Prop_Wire.v
theories/Prop_Xtask.v
theories/RangesModel.v
theories/RangesProofs.v
theories/RenderProofs.v
theories/RttExamples.v
theories/RttGone.v
theories/RttLive.v
theories/RttModel.v
theories/RttProofs.v
theories/RzcobsModel.v
theories/RzcobsProofs.v
theories/SchemaModel.v
theories/SchemaProofs.v
theories/SinkEnds.v
theories/SinkExamples.v
theories/SinkFormats.v
theories/SinkMain.v
theories/SinkModel.v
theories/SinkProofs.v
theories/SinkSpec.v
theories/SizeProofs.v
theories/SizeSpec.v
theories/StreamBytes.v
theories/StreamExamples.v
theories/StreamModel.v
theories/StreamProofs.v
theories/StreamSpec.v
theories/SuiteExamples.v
theories/SuiteMain.v
theories/SuiteModel.v
theories/SuiteSpec.v
theories/SymbolModel.v
theories/SymbolProofs.v
theories/SyntaxExamples.v
theories/SyntaxModel.v
theories/SyntaxProofs.v
theories/SyntaxSpec.v
theories/TableExamples.v
theories/TableMain.v
theories/TableModel.v
theories/TableProofs.v
theories/TableSpec.v
theories/TextExamples.v
theories/TextMain.v
theories/TextProofs.v
theories/TextSpec.v
theories/Utf8.v
theories/Utf8Exact.v
theories/WeakDevice.v
theories/WeakExamples.v
theories/WeakMain.v
theories/WeakModel.v
theories/WeakProofs.v
theories/WireProofs.v
theories/WireSpec.v
theories/XtaskExamples.v
theories/XtaskMain.v
theories/XtaskModel.v
theories/XtaskProofs.v
theories/XtaskSpec.v
theories/XtaskTargets.v
theories/XtaskTargetsEx.v
