-Q theories Verif
theories/Util.v
theories/Server.v
theories/ServerSpec.v
theories/ServerProofs.v
theories/ServerLemmas.v
theories/ServerExamples.v
theories/PropsServer.v
theories/RustTy.v
theories/Gen.v
theories/Graph.v
theories/GenSpec.v
theories/GenProofs.v
theories/GenLemmas.v
theories/GenExamples.v
theories/PropsGen.v
theories/JsLex.v
theories/JsParse.v
theories/Ast.v
theories/AstProofs.v
theories/Js.v
theories/Zod.v
theories/ZodProofs.v
theories/ZodSpec.v
theories/Serde.v
theories/ZodLoad.v
theories/ZodLemmas.v
theories/ZodExamples.v
theories/PropsZod.v
theories/ZGen.v
theories/SerdeSpec.v
theories/SerdeMono.v
theories/SerdeProofs.v
theories/SerdeExamples.v
theories/PropsSerde.v
theories/ParseSpec.v
theories/ParseProofs.v
theories/ParseTerm.v
theories/CompleteSpec.v
theories/Round.v
theories/CompleteProofs.v
theories/CompleteExamples.v
theories/PropsComplete.v
theories/TsType.v
theories/TsAst.v
theories/TsAstProofs.v
theories/TsSpec.v
theories/TsMember.v
theories/TsWire.v
theories/TsExamples.v
theories/PropsTs.v
theories/Docs.v
theories/DocsSpec.v
theories/DocsProofs.v
theories/DocsExamples.v
theories/PropsDocs.v
theories/Registry.v
theories/RegistrySpec.v
theories/RegistryProofs.v
theories/RegistryExamples.v
theories/PropsRegistry.v
theories/JsModule.v
theories/ModuleSpec.v
theories/ModuleProofs.v
theories/ScopeSpec.v
theories/ScopeProofs.v
theories/ModuleExamples.v
theories/PropsModule.v
theories/Macro.v
theories/MacroSpec.v
theories/MacroProofs.v
theories/MacroExamples.v
theories/PropsMacro.v
theories/Wire.v
theories/WireSpec.v
theories/WireProofs.v
theories/WireExamples.v
theories/PropsWire.v
theories/Pump.v
theories/PumpSpec.v
theories/PumpProofs.v
theories/PumpExamples.v
theories/PropsPump.v
theories/Client.v
theories/ClientSpec.v
theories/ClientProofs.v
theories/ClientSockProofs.v
theories/ClientExamples.v
theories/PropsClient.v
theories/E2E.v
theories/E2ESpec.v
theories/E2EProofs.v
theories/E2ESafe.v
theories/E2ELive.v
theories/E2EFlow.v
theories/E2ESettle.v
theories/E2EFail.v
theories/JsonText.v
theories/JsonTextSpec.v
theories/JsonTextProofs.v
theories/JsonTextExamples.v
theories/PropsJson.v
theories/E2EText.v
theories/E2EWire.v
theories/E2EExamples.v
theories/PropsE2E.v
theories/E2EStreamSpec.v
theories/E2EStream.v
theories/E2EStreamLive.v
theories/E2EStreamWire.v
theories/E2EStreamExamples.v
theories/PropsStream.v
theories/TypedValue.v
theories/ClientFn.v
theories/TypedSpec.v
theories/TypedFn.v
theories/TypedProofs.v
theories/TypedExamples.v
theories/PropsTyped.v
theories/Written.v
theories/WrittenSpec.v
theories/WrittenProofs.v
theories/WrittenExamples.v
theories/PropsWritten.v
theories/Conformance.v
theories/Prelude.v
theories/TsProgram.v
theories/FileSpec.v
theories/FileProofs.v
theories/FileExamples.v
theories/PropsFile.v
theories/JsSem.v
theories/JsRun.v
theories/JsFun.v
theories/JsSend.v
theories/JsCalls.v
theories/JsRequest.v
theories/JsEvents.v
theories/JsHeap.v
theories/JsNet.v
theories/JsFlush.v
theories/JsSpec.v
theories/JsWorld.v
theories/JsStep.v
theories/JsEntries.v
theories/JsActs.v
theories/JsListen.v
theories/JsCode.v
theories/JsJobs.v
theories/JsEach.v
theories/JsTasks.v
theories/JsPage.v
theories/JsMono.v
theories/JsClaims.v
theories/JsExamples.v
theories/PropsJs.v
theories/System.v
theories/SystemSpec.v
theories/SystemProofs.v
theories/SystemClaims.v
theories/SystemListen.v
theories/SystemExamples.v
theories/PropsSystem.v
theories/SystemFair.v
theories/SystemSched.v
theories/SystemStays.v
theories/SystemLive.v
theories/SystemFlow.v
theories/SystemFairExamples.v
theories/PropsSystemLive.v
theories/SystemTypedSpec.v
theories/SystemTyped.v
theories/SystemTypedAll.v
theories/SystemTypedExamples.v
theories/PropsSystemTyped.v
