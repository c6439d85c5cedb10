-Q theories Verif
theories/Bytes.v
theories/Utf8.v
theories/WireModel.v
theories/WireSpec.v
theories/WireProofs.v
theories/WireTheorems.v
theories/FrameModel.v
theories/FrameProofs.v
theories/PropWire.v
theories/PropFrame.v
theories/TsModel.v
theories/TsProofs.v
theories/TsReader.v
theories/PropTs.v
theories/ProtoModel.v
theories/ProtoProofs.v
theories/ProtoInv.v
theories/ProtoRun.v
theories/ProtoTypes.v
theories/ProtoService.v
theories/ProtoGrammar.v
theories/PropProto.v
theories/ProtoElab.v
theories/ProtoTree.v
theories/ProtoBuild.v
theories/ProtoRebuild.v
theories/PropGrammar.v
theories/PropTyped.v
theories/ProducerModel.v
theories/ProducerProofs.v
theories/ProducerInv.v
theories/ProducerMore.v
theories/ProducerFrame.v
theories/ProducerSeg.v
theories/ProducerStop.v
theories/PropProducer.v
theories/ConsumerModel.v
theories/ConsumerProofs.v
theories/ConsumerInv.v
theories/ConsumerTrace.v
theories/ConsumerTrace2.v
theories/ConsumerGood.v
theories/ConsumerSpec.v
theories/ConsumerLive.v
theories/PropConsumer.v
theories/ConsumerNamed.v
theories/PropConsumerEnds.v
theories/PropConsumerLife.v
theories/WfModel.v
theories/WfProofs.v
theories/WfGrammar.v
theories/WfElab.v
theories/WfServed.v
theories/PropWf.v
theories/RenderModel.v
theories/RenderProofs.v
theories/PropRender.v
theories/PropNames.v
theories/CliModel.v
theories/PropCli.v
theories/PropPuml.v
theories/PropKeys.v
theories/SystemServer.v
theories/SystemModel.v
theories/SystemProofs.v
theories/PropSystem.v
theories/SystemAnswers.v
theories/PropAnswers.v
theories/SystemLive.v
theories/PropRest.v
theories/TsClientModel.v
theories/TsClientProofs.v
theories/TsClientTrace.v
theories/PropTsClient.v
theories/TsServerModel.v
theories/TsServerProofs.v
theories/TsServerTrace.v
theories/PropTsServer.v
theories/TsSystemModel.v
theories/TsSystemProofs.v
theories/TsSystemOrder.v
theories/TsSystemRest.v
theories/PropTsSystem.v
theories/MixModel.v
theories/MixProofs.v
theories/PropMix.v
theories/CrossModel.v
theories/CrossProofs.v
theories/PropCross.v
theories/TsNames.v
theories/PropTsNames.v
theories/CrossRest.v
theories/PropCrossRest.v
theories/ClientRest.v
theories/PropCrossEnd.v
theories/TsServerRest.v
theories/PropTsEnd.v
theories/ConsumerRest.v
theories/PropSystemEnd.v
theories/RunModel.v
theories/PropRun.v
