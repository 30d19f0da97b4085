-Q theories Verif
theories/LibBase.v
theories/LibMap.v
theories/WireModel.v
theories/WireProofs.v
theories/CmdModel.v
theories/CmdProofs.v
theories/Utf8.v
theories/RespModel.v
theories/RespProofs.v
theories/PropWire.v
theories/StoreModel.v
theories/StoreProofs.v
theories/PropStore.v
theories/QueueModel.v
theories/QueueSpec.v
theories/QueueObs.v
theories/QueueProofs.v
theories/QueueRefine.v
theories/QueueTrace.v
theories/QueueFacts.v
theories/QueueFacts2.v
theories/QueueMgrModel.v
theories/QueueMgrProofs.v
theories/PropQueue.v
theories/QueuePersistModel.v
theories/QueuePersistProofs.v
theories/QueuePersistInv.v
theories/QueuePersistSys.v
theories/QueuePersistCrash.v
theories/QueuePersistOrder.v
theories/PropQueuePersist.v
theories/PubSubModel.v
theories/PubSubSpec.v
theories/PubSubTree.v
theories/PubSubProofs.v
theories/TopicSpec.v
theories/PubSubFacts.v
theories/PubSubPersistModel.v
theories/PubSubPersistProofs.v
theories/PubSubConcModel.v
theories/PubSubConcProofs.v
theories/PubSubConcGone.v
theories/SdkDispatch.v
theories/PropPubSub.v
theories/StreamTopicModel.v
theories/StreamGroupModel.v
theories/StreamGroupSpec.v
theories/StreamGroupProofs.v
theories/StreamGroupSteps.v
theories/StreamGroupFetch.v
theories/StreamGroupHist.v
theories/StreamGroupFacts.v
theories/StreamTopicProofs.v
theories/Crc32.v
theories/StreamStoreModel.v
theories/StreamStoreCodec.v
theories/StreamStoreProofs.v
theories/StreamStoreFacts.v
theories/StreamSysModel.v
theories/StreamSysProofs.v
theories/StreamSysHist.v
theories/StreamSysFacts.v
theories/StreamSysBoot.v
theories/StreamSysLife.v
theories/StreamSaved.v
theories/PropStreamGroup.v
theories/PropStreamStorage.v
theories/WakeModel.v
theories/WakeProofs.v
theories/QueueWake.v
theories/StreamWild.v
theories/StreamWake.v
theories/PropWakeQueue.v
theories/PropWakeStream.v
theories/ConnModel.v
theories/ConnProofs.v
theories/ConnFacts.v
theories/ConnClient.v
theories/ConnPush.v
theories/ConnStore.v
theories/PropConn.v
theories/PropConnPush.v
theories/ConnStoreSpec.v
theories/ConnStoreProofs.v
theories/PropConnStore.v
theories/ConnRelease.v
theories/ConnReleaseProofs.v
theories/PropRelease.v
theories/SdkLoopModel.v
theories/SdkLoopProofs.v
theories/PropSdkLoop.v
theories/SdkConnModel.v
theories/SdkConnSpec.v
theories/SdkConnProofs.v
theories/SdkConnHeard.v
theories/PropSdkConn.v
theories/SdkSubModel.v
theories/SdkSubSpec.v
theories/SdkSubProofs.v
theories/SdkSubKept.v
theories/SdkSubGone.v
theories/SdkSubLive.v
theories/PropSdkSub.v
theories/SdkStreamModel.v
theories/SdkStreamSpec.v
theories/SdkStreamProofs.v
theories/SdkStreamFlow.v
theories/SdkStreamSys.v
theories/SdkStreamSysSpec.v
theories/SdkStreamServer.v
theories/SdkStreamHold.v
theories/SdkStreamAlive.v
theories/PropSdkStream.v
theories/StreamProgress.v
theories/StreamApi.v
theories/StreamFiles.v
theories/PropStreamApi.v
theories/PropProgress.v
theories/DeleteModel.v
theories/DeleteProofs.v
theories/DeleteQueueProofs.v
theories/PropDelete.v
theories/SdkQueueModel.v
theories/SdkQueueSpec.v
theories/SdkQueueProofs.v
theories/SdkQueueFlow.v
theories/SdkQueueTurns.v
theories/PropSdkQueue.v
theories/SdkQueueTokens.v
theories/SdkQueueSysModel.v
theories/SdkQueueSysSpec.v
theories/SdkQueueSysProofs.v
theories/SdkQueueSysFacts.v
theories/PropSdkQueueSys.v
theories/SdkStreamNetModel.v
theories/SdkStreamNetSpec.v
theories/SdkStreamNetServer.v
theories/SdkStreamNetProofs.v
theories/SdkStreamNetOnce.v
theories/SdkStreamNetEnd.v
theories/PropSdkStreamNet.v
theories/PubSubDashModel.v
theories/PubSubDashSpec.v
theories/PubSubDashTree.v
theories/PubSubDashProofs.v
theories/PropPubSubDash.v
theories/StreamDashModel.v
theories/StreamDashProofs.v
theories/PropStreamDash.v
theories/ValueModel.v
theories/ValueProofs.v
theories/PropValue.v
theories/JsonModel.v
theories/JsonProofs.v
theories/PropJson.v
theories/OptionsModel.v
theories/OptionsProofs.v
theories/JsonCutProofs.v
theories/PropOptions.v
theories/PropConfig.v
theories/SdkStoreModel.v
theories/SdkStoreProofs.v
theories/PropSdkStore.v
theories/SdkPublishModel.v
theories/PropSdkPublish.v
theories/SdkMsgModel.v
theories/PropSdkMsg.v
theories/PropSdkRec.v
theories/QueueDashModel.v
theories/QueueDashProofs.v
theories/PropQueueDash.v
theories/SdkQueueCrashModel.v
theories/SdkQueueCrashProofs.v
theories/SdkQueueOnceProofs.v
theories/PropSdkQueueCrash.v
theories/StoreDashModel.v
theories/StoreDashProofs.v
theories/PropStoreDash.v
theories/CfgLifeModel.v
theories/PropCfgLife.v
theories/QueueDrain.v
theories/PropQueueDrain.v
theories/QueueDrainCrash.v
theories/PropQueueDrainCrash.v
