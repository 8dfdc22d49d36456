-Q theories Verif
theories/Base.v
theories/Utf8.v
theories/Utf8Facts.v
theories/StrModel.v
theories/ErrorModel.v
theories/Tokenizer.v
theories/Parser.v
theories/ValueModel.v
theories/DocModel.v
theories/NumModel.v
theories/Spec.v
theories/SpecError.v
theories/TokBase.v
theories/TokStr.v
theories/TokNum.v
theories/TokFacts.v
theories/ErrTok.v
theories/ParserGen.v
theories/Trace.v
theories/ParserSound.v
theories/ParserComplete.v
theories/ErrSound.v
theories/ErrComplete.v
theories/Sim.v
theories/SimInst.v
theories/StrSpec.v
theories/SpecUnique.v
theories/View.v
theories/ParseMain.v
theories/DocFacts.v
theories/GrammarFacts.v
theories/SpecLex.v
theories/Lexemes.v
theories/SpecNum.v
theories/SpecWrite.v
theories/WriteFacts.v
theories/WriteGrammar.v
theories/WriteStops.v
theories/SpecStr.v
theories/StrFacts.v
theories/StrEsc.v
theories/StrWf.v
theories/StringScan.v
theories/PropParse.v
theories/PropTrail.v
theories/PropTok.v
theories/PropEntry.v
theories/ErrFinal.v
theories/ErrPlace.v
theories/PropExact.v
theories/StrObt.v
theories/PropStr.v
theories/PropEsc.v
theories/PropDelegate.v
theories/PropErrors.v
theories/PropValue.v
theories/PropNumber.v
theories/PropWrite.v
theories/PropSpace.v
theories/ErrorDisplay.v
theories/ObjectModel.v
theories/PropMessage.v
theories/PropData.v
theories/PropText.v
theories/PropIter.v
theories/SpecCall.v
theories/CallSound.v
theories/CallExact.v
theories/OwnKinds.v
theories/PropCall.v
theories/PropDepth.v
theories/PropProtocol.v
theories/PropDocEq.v
theories/PropFused.v
theories/PropCanon.v
theories/PropStrExact.v
theories/PropTokExact.v
theories/ModelTests.v
theories/PropWork.v
theories/PropCausal.v
theories/PropPortable.v
theories/CollectionModel.v
theories/PropCollection.v
theories/FloatModel.v
theories/SpecFloat.v
theories/FloatFacts.v
theories/PropFloat.v
theories/SpecTok.v
theories/PropTokens.v
theories/DisplayModel.v
theories/PropDisplay.v
theories/PropPath.v
theories/PropBorrow.v
theories/SpecAbnf.v
theories/AbnfFacts.v
theories/PropAbnf.v
theories/ReleaseModel.v
theories/LookModel.v
theories/LookFacts.v
theories/PropTime.v
theories/LookLocal.v
theories/LookEach.v
theories/PropLook.v
theories/PropParam.v
theories/PropRelease.v
theories/PropProgress.v
theories/PropBoundary.v
theories/PropLines.v
theories/EqModel.v
theories/PropEq.v
theories/PropWriteDepth.v
theories/WitBase.v
theories/WitParse.v
theories/WitEntry.v
theories/WitTok.v
theories/WitEq.v
theories/WitExact.v
theories/WitCall.v
theories/WitData.v
theories/WitEsc.v
theories/WitNum.v
theories/WitStr.v
theories/WitWrite.v
theories/DebugModel.v
theories/PropDebug.v
theories/WitDebug.v
theories/PropOrder.v
theories/WitOrder.v
theories/PropClient.v
theories/PropTold.v
theories/WitClient.v
theories/WitTold.v
theories/PropRefuse.v
theories/WitRefuse.v
theories/Assumptions.v
