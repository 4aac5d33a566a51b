-Q theories Verif
theories/Access.v
theories/Ahead.v
theories/AppExc.v
theories/AppExcProofs.v
theories/Arith.v
theories/Base.v
theories/Binary.v
theories/BinaryMsg.v
theories/BinaryProofs.v
theories/BinarySpec.v
theories/BufIO.v
theories/BufRead.v
theories/BufReadProofs.v
theories/Buffer.v
theories/Codec.v
theories/CoerceProofs.v
theories/Compact.v
theories/CompactArith.v
theories/CompactCut.v
theories/CompactExact.v
theories/CompactProofs.v
theories/CompactRead.v
theories/CompactSkip.v
theories/CompactSpec.v
theories/CompactStruct.v
theories/Compare.v
theories/CompareProofs.v
theories/ConstProofs.v
theories/ConstSpec.v
theories/Consts.v
theories/ContainerKeys.v
theories/Deadline.v
theories/Depth.v
theories/Errors.v
theories/F64.v
theories/F64Exact.v
theories/Factory.v
theories/Framed.v
theories/FramedProofs.v
theories/Gen.v
theories/GenCompare.v
theories/GenErr.v
theories/GenInst.v
theories/GenProofs.v
theories/GenRound.v
theories/GenSpec.v
theories/GoVal.v
theories/Golden.v
theories/Het.v
theories/Http.v
theories/IOStream.v
theories/Iter.v
theories/Json.v
theories/JsonCut.v
theories/JsonForm.v
theories/JsonRead.v
theories/JsonReadVal.v
theories/JsonSkip.v
theories/JsonSpec.v
theories/JsonText.v
theories/JsonTextProofs.v
theories/JsonTotal.v
theories/JsonWrite.v
theories/Layout.v
theories/ListOrder.v
theories/MapCompare.v
theories/MemBuffer.v
theories/Names.v
theories/Numeric.v
theories/Over.v
theories/OverInst.v
theories/OverRpc.v
theories/OverSim.v
theories/ProgFile.v
theories/PropAhead.v
theories/PropAnswer.v
theories/PropBinary.v
theories/PropCalm.v
theories/PropCalmClient.v
theories/PropCalmCompact.v
theories/PropCalmJson.v
theories/PropCompact.v
theories/PropCompactChat.v
theories/PropCompactCut.v
theories/PropCompactExact.v
theories/PropCompactServer.v
theories/PropCompactSkip.v
theories/PropCompare3.v
theories/PropCompare4.v
theories/PropConst.v
theories/PropContainerKeys.v
theories/PropContainers.v
theories/PropDeadline.v
theories/PropEcho.v
theories/PropExcText.v
theories/PropFactory.v
theories/PropFail.v
theories/PropFramed.v
theories/PropFramedCalls.v
theories/PropFramedTutorial.v
theories/PropGen.v
theories/PropGenCompare.v
theories/PropGenErr.v
theories/PropGolden.v
theories/PropHalt.v
theories/PropHaltClient.v
theories/PropIO.v
theories/PropIter.v
theories/PropJson.v
theories/PropJsonChat.v
theories/PropJsonCut.v
theories/PropJsonGen.v
theories/PropJsonReject.v
theories/PropJsonRpc.v
theories/PropJsonServe.v
theories/PropJsonTotal.v
theories/PropJsonTutorial.v
theories/PropJsonWrite.v
theories/PropLayout.v
theories/PropMain.v
theories/PropMany.v
theories/PropMapOrder.v
theories/PropNames.v
theories/PropNanFree.v
theories/PropNumeric.v
theories/PropOrder.v
theories/PropOver.v
theories/PropOverRpc.v
theories/PropPieces.v
theories/PropProgFile.v
theories/PropRefused.v
theories/PropRemote.v
theories/PropRpc.v
theories/PropServe.v
theories/PropServeCompact.v
theories/PropServer.v
theories/PropService.v
theories/PropSimpleGen.v
theories/PropSimpleRpc.v
theories/PropSimpleTutorial.v
theories/PropStructDef.v
theories/PropTcompare.v
theories/PropTransport.v
theories/PropTutorial.v
theories/PropTyped.v
theories/PropTypedef.v
theories/PropUnframe.v
theories/PropWork.v
theories/Proto.v
theories/ReadProg.v
theories/Remote.v
theories/Rpc.v
theories/RpcFits.v
theories/RpcInv.v
theories/RpcProofs.v
theories/Serve.v
theories/ServeProofs.v
theories/ServeRounds.v
theories/Server.v
theories/ServerSocket.v
theories/SimpleGen.v
theories/Sizes.v
theories/Skip.v
theories/SkipProofs.v
theories/Socket.v
theories/Strconv.v
theories/StructDef.v
theories/TField.v
theories/TFieldProofs.v
theories/TList.v
theories/TMap.v
theories/TSet.v
theories/Tcompare.v
theories/Transport.v
theories/TransportProofs.v
theories/Tutorial.v
theories/TutorialMain.v
theories/Typedef.v
theories/Unframe.v
theories/UnframeCompact.v
theories/Values.v
theories/WfDec.v
theories/WriteEnds.v
theories/WriteErr.v
