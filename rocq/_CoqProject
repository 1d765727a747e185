-Q theories Verif
theories/Base.v
theories/GoStrings.v
theories/Utils.v
theories/Buffer.v
theories/Types.v
theories/Transforms.v
theories/Operators.v
theories/Transaction.v
theories/Variables.v
theories/Rules.v
theories/Engine.v
theories/Custom.v
theories/Scanner.v
theories/Loader.v
theories/World.v
theories/Names.v
theories/Registry.v
theories/Slices.v
theories/BaseFacts.v
theories/SpecText.v
theories/TextFacts.v
theories/TransFacts.v
theories/NumFacts.v
theories/PropText.v
theories/SpecBuffer.v
theories/BufferFacts.v
theories/PropBuffer.v
theories/SpecVars.v
theories/VarFacts.v
theories/VarText.v
theories/Witness.v
theories/BodyFacts.v
theories/PropVars.v
theories/SpecRules.v
theories/RuleFacts.v
theories/OrderFacts.v
theories/PropRules.v
theories/TxnFacts.v
theories/SpecTxn.v
theories/LoopFacts.v
theories/PropPhases.v
theories/PropTxn.v
theories/SpecParse.v
theories/ParseFacts.v
theories/ParseLists.v
theories/ParseFiles.v
theories/ParsePrint.v
theories/PropParse.v
theories/SpecLoad.v
theories/LoadFacts.v
theories/PropLoad.v
theories/PropEnd.v
theories/TwiceFacts.v
theories/PropTwice.v
theories/RepoTests.v
theories/SpecData.v
theories/PropData.v
theories/SpecGate.v
theories/PropGate.v
theories/PropSafe.v
theories/PropFile.v
theories/PropNames.v
theories/PropRegistry.v
theories/PropLog.v
theories/SpecBody.v
theories/PropBody.v
theories/SpecVerdict.v
theories/PropVerdict.v
theories/SpecHang.v
theories/PropHang.v
theories/PropReturn.v
theories/SpecAnswer.v
theories/PropAnswer.v
theories/SpecReply.v
theories/PropReply.v
theories/SpecAlias.v
theories/PropAlias.v
theories/SpecReader.v
theories/PropReader.v
theories/SpecCustom.v
theories/PropCustom.v
theories/SpecWorld.v
theories/PropWorld.v
theories/SpecQuery.v
theories/PropQuery.v
theories/Dirs.v
theories/SpecDirs.v
theories/PropDirs.v
theories/SpecAccount.v
theories/PropAccount.v
theories/PropComplete.v
theories/Held.v
theories/SpecHeld.v
theories/PropHeld.v
theories/SpecTape.v
theories/PropTape.v
theories/SpecChronicle.v
theories/ChronicleFacts.v
theories/PropChronicle.v
theories/PropScript.v
theories/Closed.v
theories/PropClosed.v
theories/SpecProgram.v
theories/PropProgram.v
theories/SpecAnnals.v
theories/PropAnnals.v
theories/Threads.v
theories/SpecThreads.v
theories/PropThreads.v
theories/Regex.v
theories/SpecRegex.v
theories/RegexFacts.v
theories/PropRegex.v
theories/Uri.v
theories/SpecUri.v
theories/PropUri.v
theories/Media.v
theories/SpecMedia.v
theories/PropMedia.v
theories/Multi.v
theories/SpecMulti.v
theories/PropMulti.v
theories/Index.v
theories/PropIndex.v
theories/SpecFilter.v
theories/PropFilter.v
theories/SpecExchange.v
theories/PropExchange.v
theories/PropTotal.v
theories/SpecCourse.v
theories/PropCourse.v
theories/Shared.v
theories/SpecShared.v
theories/PropShared.v
theories/MultiLf.v
theories/SpecMultiLf.v
theories/PropMultiLf.v
