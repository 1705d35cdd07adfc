-Q theories Verif
theories/GoBase.v
theories/GoMap.v
theories/KeyPath.v
theories/EventHeap.v
theories/Tree.v
theories/EventRefine.v
theories/EventOps.v
theories/EventSeq.v
theories/EventShared.v
theories/EventFacts.v
theories/EventCopy.v
theories/EventCopyOps.v
theories/EventProps.v
theories/Processors.v
theories/ProcFacts.v
theories/ProcRun.v
theories/Pipeline.v
theories/PipelineFacts.v
theories/PipelineSim.v
theories/PipelineRun.v
theories/PipeSpec.v
theories/PipeGen.v
theories/PipeSem.v
theories/ShareSpec.v
theories/ShareRel.v
theories/ShareSem.v
theories/ShareFacts.v
theories/Iso.v
theories/IsoRun.v
theories/Isolation.v
theories/IsolationProps.v
theories/PipelineProps.v
theories/Registry.v
theories/Itoa.v
theories/PipelineNew.v
theories/PipelineNewFacts.v
theories/NewProps.v
theories/ProcProps.v
theories/Wire.v
theories/WireSpec.v
theories/WireVarint.v
theories/WireMarshal.v
theories/WireRead.v
theories/WireLocal.v
theories/WireRound.v
theories/WireOut.v
theories/WireSame.v
theories/WireProps.v
theories/WireMeaning.v
theories/WireDecode.v
theories/WireDecodeTop.v
theories/WireMeaningProps.v
theories/Protobuf.v
theories/ProtobufFacts.v
theories/ProtobufEnd.v
theories/ProtobufProps.v
theories/Conc.v
theories/ConcProps.v
theories/ConcIso.v
theories/Pool.v
theories/PoolProps.v
theories/Reflect.v
theories/ReflectFacts.v
theories/MapIface.v
theories/MapIfaceProps.v
theories/JsonTime.v
theories/Utf8.v
theories/Float64.v
theories/Nearest.v
theories/Json.v
theories/JsonText.v
theories/JsonEvent.v
theories/JsonProps.v
theories/JsonGrammar.v
theories/JsonGrammarStr.v
theories/JsonGrammarFacts.v
theories/JsonMeaning.v
theories/JsonGrammarProps.v
theories/ConfigJson.v
theories/ConfigJsonFacts.v
theories/ConfigMeaning.v
theories/ConfigMeaningProps.v
theories/ConfigProps.v
theories/ProxyProps.v
theories/Cmd.v
theories/CmdFacts.v
theories/CmdTrace.v
theories/CmdIso.v
theories/CmdProps.v
theories/PipeSemProps.v
theories/ShareProps.v
theories/ShareTextSpec.v
theories/ShareText.v
theories/CmdSem.v
theories/CmdSemProps.v
theories/Builtins.v
theories/BuiltinsProps.v
theories/CLib.v
theories/ShareCmd.v
theories/CLibProps.v
theories/ShareCmdProps.v
theories/ShareLib.v
theories/ShareLibProps.v
theories/Prom.v
theories/PromProps.v
theories/Slices.v
theories/SlicesFacts.v
theories/SlicesProps.v
theories/Unwind.v
theories/UnwindProps.v
theories/Shortest.v
theories/FloatText.v
theories/FloatProps.v
theories/Reuse.v
theories/ReuseSpec.v
theories/ReuseMem.v
theories/ReuseProps.v
theories/Session.v
theories/SessionFacts.v
theories/SessionProps.v
theories/Scanner.v
theories/Gen.v
theories/GenFacts.v
theories/GenNames.v
theories/GenProps.v
theories/TransportProps.v
theories/ConfigString.v
theories/ConfigStringProps.v
theories/ValueFormat.v
theories/ValueFormatProps.v
theories/WireInto.v
theories/WireIntoProps.v
theories/Yaml.v
theories/YamlProps.v
theories/YamlJson.v
theories/YamlJsonProps.v
theories/Main.v
theories/MainProps.v
theories/Schema.v
theories/Generators.v
theories/SchemaProps.v
theories/Unpack.v
theories/UnpackProps.v
theories/Getters.v
theories/GettersProps.v
theories/ToEvent.v
theories/ToEventProps.v
theories/Clean.v
theories/CleanProps.v
theories/GenTextProps.v
theories/RegistryProps.v
