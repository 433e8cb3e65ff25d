-Q theories Verif
theories/GoStr.v
theories/GoNum.v
theories/GoFloat.v
theories/Heap.v
theories/Common.v
theories/ValueModel.v
theories/ArrayModel.v
theories/MapModel.v
theories/JsonModel.v
theories/ParserModel.v
theories/StrLemmas.v
theories/SpecDict.v
theories/DictLemmas.v
theories/SpecWorld.v
theories/Inv.v
theories/World.v
theories/Reach.v
theories/MapFacts.v
theories/SpecNum.v
theories/NumLemmas.v
theories/GetterModel.v
theories/GetterFacts.v
theories/GetterFrame.v
theories/GetterLift.v
theories/GetterMore.v
theories/ObjFacts.v
theories/MapMore.v
theories/ShareFacts.v
theories/ExampleState.v
theories/GetterProps.v
theories/PropMap.v
theories/PropGetters.v
theories/SpecDoc.v
theories/RepFacts.v
theories/TreeParser.v
theories/ParseWorld.v
theories/ParseRefine.v
theories/ParseTop.v
theories/SpecFloat.v
theories/SpecText.v
theories/TextRun.v
theories/FloatFacts.v
theories/SpecToken.v
theories/TokenFacts.v
theories/SpecParse.v
theories/ParseFacts.v
theories/PosFacts.v
theories/TidyFacts.v
theories/TypedFacts.v
theories/TextDec.v
theories/ParseMore.v
theories/ExampleText.v
theories/PropParse.v
theories/SpecRender.v
theories/RenderFacts.v
theories/ShowFacts.v
theories/CycleFacts.v
theories/SpecRound.v
theories/RoundFacts.v
theories/StableFacts.v
theories/RoundMore.v
theories/SpecUtf8.v
theories/SpecJson.v
theories/JsonFacts.v
theories/FloatGet.v
theories/SerialFacts.v
theories/ExampleJson.v
theories/PropJson.v
theories/PropFloat.v
theories/SpecClone.v
theories/CloneFacts.v
theories/ClonePaths.v
theories/SpecHistory.v
theories/CloneTop.v
theories/CloneResults.v
theories/ExampleClone.v
theories/PropClone.v
theories/SpecArray.v
theories/ArrayFacts.v
theories/ArrayGet.v
theories/ArrayMore.v
theories/ExampleArray.v
theories/PropArray.v
theories/SpecPanic.v
theories/PanicFacts.v
theories/KeysSlice.v
theories/KeysFacts.v
theories/PropKeys.v
theories/SpecKeys.v
theories/MethodTable.v
theories/MethodFacts.v
theories/PropMethods.v
theories/ConcModel.v
theories/SpecConc.v
theories/ConcFacts.v
theories/PropConc.v
theories/RunesModel.v
theories/RunesFacts.v
theories/PropRunes.v
theories/SpecEdit.v
theories/EditFacts.v
theories/PropEdit.v
theories/ErrFacts.v
theories/PropErr.v
theories/SpecErr.v
theories/ErrOne.v
theories/PropErrOne.v
theories/ErrAny.v
theories/PropErrAny.v
theories/SpecWrite.v
theories/WriteFacts.v
theories/PropWrite.v
theories/SpecString.v
theories/IndexFacts.v
theories/PropIndex.v
theories/FuncFacts.v
theories/PropFunc.v
theories/NamedModel.v
theories/SpecNamed.v
theories/NamedFacts.v
theories/PropNamed.v
theories/PtrModel.v
theories/SpecPtr.v
theories/PtrFacts.v
theories/PropPtr.v
theories/TimeModel.v
theories/SpecTime.v
theories/TimeFacts.v
theories/PropTime.v
theories/SpecValues.v
theories/ValuesModel.v
theories/ValuesFacts.v
theories/PropValues.v
theories/ReadModel.v
theories/SpecRead.v
theories/ReadFacts.v
theories/PropRead.v
theories/SpecTrip.v
theories/TripFacts.v
theories/PropTrip.v
theories/SpecRepeat.v
theories/RepeatFacts.v
theories/PropRepeat.v
theories/CloneRead.v
theories/PropCloneRead.v
theories/SpecConvert.v
theories/ConvertFacts.v
theories/PropConvert.v
theories/ViaFacts.v
theories/PropVia.v
theories/SpecRfc.v
theories/RfcFacts.v
theories/RfcExamples.v
theories/PropRfc.v
theories/MetricsModel.v
theories/SpecMetrics.v
theories/MetricsFacts.v
theories/MetricsParse.v
theories/PropMetrics.v
theories/ParseConcModel.v
theories/SpecParseConc.v
theories/ParseConcFacts.v
theories/PropParseConc.v
theories/PtrListModel.v
theories/SpecPtrList.v
theories/PtrListFacts.v
theories/PropPtrList.v
theories/SpecReader.v
theories/ReaderFacts.v
theories/ReaderExamples.v
theories/PropReader.v
theories/SpecOrigin.v
theories/OriginFacts.v
theories/PropOrigin.v
theories/SpecNormal.v
theories/NormalFacts.v
theories/PropNormal.v
theories/SpecNest.v
theories/NestFacts.v
theories/WholeFacts.v
theories/PropNest.v
theories/SpecScalar.v
theories/ScalarFacts.v
theories/ScalarRun.v
theories/ScalarTop.v
theories/PropScalar.v
theories/SpecEvery.v
theories/EveryFacts.v
theories/EveryTop.v
theories/PropEvery.v
theories/SpecAlike.v
theories/ClientModel.v
theories/AlikeFacts.v
theories/AlikeRead.v
theories/AlikeWrite.v
theories/AlikeTop.v
theories/ExampleAlike.v
theories/CoverModel.v
theories/CoverFacts.v
theories/PropAlike.v
theories/TeamModel.v
theories/TeamFacts.v
theories/ExampleTeam.v
theories/PropTeam.v
theories/MessageModel.v
theories/SpecMessage.v
theories/MessageFacts.v
theories/MessageRefine.v
theories/MessageTop.v
theories/ExampleMessage.v
theories/PropMessage.v
theories/SaysModel.v
theories/SpecSays.v
theories/SaysFacts.v
theories/SaysInts.v
theories/SaysRest.v
theories/SaysAll.v
theories/SaysLists.v
theories/SaysAgree.v
theories/SaysMapLists.v
theories/SaysTop.v
theories/ExampleSays.v
theories/PropSays.v
theories/ToldModel.v
theories/SpecTold.v
theories/ToldFacts.v
theories/ToldClone.v
theories/ToldTop.v
theories/ExampleTold.v
theories/PropTold.v
theories/SpecTell.v
theories/TellFacts.v
theories/TellTop.v
theories/TellAll.v
theories/TellEnd.v
theories/ExampleTell.v
theories/PropTell.v
theories/TestKit.v
theories/TestFacts.v
theories/TestSuiteValues.v
theories/TestSuiteArrays.v
theories/MainModel.v
theories/MainFacts.v
theories/PropTests.v
theories/SpecLoop.v
theories/LoopModel.v
theories/LoopFacts.v
theories/PropLoop.v
theories/ElemSlice.v
theories/SpecElems.v
theories/ElemFacts.v
theories/PropElems.v
theories/TextModel.v
theories/TextFacts.v
theories/TextCount.v
theories/PropText.v
theories/SpecJoint.v
theories/JointFacts.v
theories/PropJoint.v
theories/AccessModel.v
theories/SpecAccess.v
theories/AccessFacts.v
theories/AccessRace.v
theories/AccessCalls.v
theories/PropAccess.v
theories/SpecHostile.v
theories/HostileFacts.v
theories/HostileRun.v
theories/HostileTop.v
theories/PropHostile.v
theories/CellModel.v
theories/SpecCell.v
theories/CellFacts.v
theories/CellRace.v
theories/CellCalls.v
theories/CellTop.v
theories/PropCell.v
theories/PokeModel.v
theories/SpecPoke.v
theories/PokeFacts.v
theories/PropPoke.v
theories/SpecOrder.v
theories/OrderModel.v
theories/OrderFacts.v
theories/OrderSlice.v
theories/PropOrder.v
theories/SpecRelabel.v
theories/RelabelModel.v
theories/RelabelFacts.v
theories/RelabelTop.v
theories/PropRelabel.v
theories/SpecHanded.v
theories/HandedModel.v
theories/HandedFacts.v
theories/PropHanded.v
theories/SpecReclone.v
theories/RecloneFacts.v
theories/RecloneDeep.v
theories/RecloneTop.v
theories/PropReclone.v
