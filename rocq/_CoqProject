-Q theories Verif
theories/AccessModel.v
theories/AccessProps.v
theories/AnswerModel.v
theories/AnswerProps.v
theories/ApiModel.v
theories/ApiProps.v
theories/Assumptions.v
theories/BatchModel.v
theories/BatchProps.v
theories/BindModel.v
theories/BindProps.v
theories/BlockModel.v
theories/BlockProps.v
theories/BridgeModel.v
theories/BridgeProps.v
theories/BuilderModel.v
theories/BuilderProps.v
theories/CargoModel.v
theories/CargoProps.v
theories/CellModel.v
theories/CellProps.v
theories/ChronoModel.v
theories/ChronoProps.v
theories/ClockModel.v
theories/ClockProps.v
theories/ClosureModel.v
theories/ClosureProps.v
theories/CodecFinal.v
theories/CodecHashModel.v
theories/CodecJsModel.v
theories/CodecJsProofs.v
theories/CodecModel.v
theories/CodecMoreProofs.v
theories/CodecProofs.v
theories/CodecProps.v
theories/CodecSpec.v
theories/CodecUtf8.v
theories/ComponentModel.v
theories/ComponentProps.v
theories/CookieJson.v
theories/CookieModel.v
theories/CookieProps.v
theories/CssMacroGen.v
theories/CssMacroModel.v
theories/CssMacroProps.v
theories/CssMacroText.v
theories/CssModel.v
theories/CssProps.v
theories/CssText.v
theories/DomBoot.v
theories/DomListen.v
theories/DomMacroBuild.v
theories/DomMacroModel.v
theories/DomMacroPage.v
theories/DomMacroProps.v
theories/DomModel.v
theories/DomQueue.v
theories/DomSort.v
theories/DomSsr.v
theories/DomWire.v
theories/EnvModel.v
theories/EnvProps.v
theories/EventModel.v
theories/EventProps.v
theories/FetchModel.v
theories/FetchProps.v
theories/FloatModel.v
theories/GraphModel.v
theories/GraphProofs.v
theories/GraphProps.v
theories/GraphSpec.v
theories/HandoverModel.v
theories/HandoverProps.v
theories/HtmlModel.v
theories/HtmlProps.v
theories/InputModel.v
theories/InputProps.v
theories/InspectModel.v
theories/InspectProps.v
theories/JsonErr.v
theories/JsonFinal.v
theories/JsonModel.v
theories/JsonProofs.v
theories/JsonSpec.v
theories/JsonTextModel.v
theories/JsonTextProofs.v
theories/JsonTextProps.v
theories/JsonTextSpec.v
theories/LogModel.v
theories/LogProps.v
theories/MapModel.v
theories/ProxyModel.v
theories/ProxyProps.v
theories/ReactBase.v
theories/ReactCoh.v
theories/ReactConn.v
theories/ReactExec.v
theories/ReactFacts.v
theories/ReactInv.v
theories/ReactModel.v
theories/ReactMore.v
theories/ReactOwn.v
theories/ReactProps.v
theories/ReactRel.v
theories/ReactSpec.v
theories/ReactStatic.v
theories/RenderHistory.v
theories/RenderList.v
theories/RenderModel.v
theories/RenderNest.v
theories/RenderProps.v
theories/ResourceModel.v
theories/ResourceProps.v
theories/RouterModel.v
theories/RouterProps.v
theories/ScaffoldModel.v
theories/ScaffoldProps.v
theories/ServerModel.v
theories/ServerProps.v
theories/SmallModel.v
theories/SmallProps.v
theories/SsrList.v
theories/SsrModel.v
theories/StaticModel.v
theories/StaticProps.v
theories/StaticServe.v
theories/StoreModel.v
theories/StoreProps.v
theories/SuspenseElem.v
theories/SuspenseModel.v
theories/SuspenseProps.v
theories/TimerModel.v
theories/TimerProps.v
theories/UiModel.v
theories/UiOnce.v
theories/UiProps.v
theories/UiSteps.v
theories/UiTheorems.v
theories/WakerModel.v
theories/WakerProps.v
theories/WatchModel.v
theories/WatchPages.v
theories/WatchProps.v
theories/WebsocketInv.v
theories/WebsocketModel.v
theories/WebsocketProps.v
theories/WireModel.v
theories/WireProps.v
theories/WireSpec.v
