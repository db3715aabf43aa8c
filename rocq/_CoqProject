-Q theories Verif
theories/Prelude.v
theories/TreeModel.v
theories/TreeSpec.v
theories/TreeIndex.v
theories/TreeProofs.v
theories/TreeHistory.v
theories/TreeOverflow.v
theories/TreePropsProofs.v
theories/PropsTree.v
theories/Coins.v
theories/Group.v
theories/ElGamalModel.v
theories/ElGamalProofs.v
theories/PropsElGamal.v
theories/TreeDelModel.v
theories/TreeDelSpec.v
theories/TreeDelProofs.v
theories/PropsTreeDel.v
theories/BytesModel.v
theories/BytesProofs.v
theories/ContextModel.v
theories/ContextProofs.v
theories/PropsBytes.v
theories/FlagModel.v
theories/PropsFlag.v
theories/NumTheory.v
theories/PaillierModel.v
theories/PaillierProofs.v
theories/PaillierS.v
theories/CipherModel.v
theories/CipherProofs.v
theories/PropsPaillier.v
theories/WireModel.v
theories/WireProofs.v
theories/PropsWire.v
theories/SyncModel.v
theories/SyncSpec.v
theories/SyncProofs.v
theories/KindProofs.v
theories/PropsSync.v
theories/AddModel.v
theories/AddSpec.v
theories/AddProofs.v
theories/AddRun.v
theories/AddStart.v
theories/BigPrime.v
theories/PropsAdd.v
theories/DelModel.v
theories/DelSpec.v
theories/DelProofs.v
theories/DelRun.v
theories/PropsDel.v
theories/PsiModel.v
theories/PsiSpec.v
theories/PsiSets.v
theories/PsiRun.v
theories/PropsPsi.v
theories/OrigModel.v
theories/OrigRun.v
theories/PropsOrig.v
theories/ServerSpec.v
theories/PropsServer.v
theories/CsvModel.v
theories/CsvSpec.v
theories/CsvProofs.v
theories/PropsCsv.v
theories/DataModel.v
theories/DataSpec.v
theories/DataProofs.v
theories/PropsData.v
theories/DataDelProofs.v
theories/PropsDataDel.v
theories/FileModel.v
theories/RecordModel.v
theories/FileSpec.v
theories/FileProofs.v
theories/PropsFile.v
theories/RecordProofs.v
theories/RecordRun.v
theories/RecordShard.v
theories/PropsRecord.v
theories/ProcessThreads.v
theories/ProcessProofs.v
theories/PropsProcess.v
theories/SetupModel.v
theories/SetupProofs.v
theories/PropsSetup.v
theories/DeployModel.v
theories/DeployProofs.v
theories/PropsDeploy.v
theories/KeyModel.v
theories/KeyProofs.v
theories/PropsKeys.v
theories/TrafficModel.v
theories/PropsTraffic.v
theories/OrigSetupModel.v
theories/OrigSetupProofs.v
theories/PropsOrigSetup.v
theories/Euler.v
theories/CurveModel.v
theories/CurveSpec.v
theories/CurveProofs.v
theories/PropsCurve.v
theories/DelSetupModel.v
theories/DelSetupProofs.v
theories/PropsDelSetup.v
theories/MontModel.v
theories/MontSpec.v
theories/MontProofs.v
theories/PropsMont.v
theories/ShapeSpec.v
theories/ShapeProofs.v
theories/PropsShape.v
theories/SchedModel.v
theories/SchedProofs.v
theories/SchedRun.v
theories/PropsSched.v
theories/OnceModel.v
theories/OnceProofs.v
theories/OnceRun.v
theories/PropsOnce.v
theories/MockModel.v
theories/MockSpec.v
theories/MockProofs.v
theories/PropsMock.v
theories/DTrafficModel.v
theories/DTrafficSpec.v
theories/DTrafficProofs.v
theories/PropsDTraffic.v
theories/MaskSpec.v
theories/PropsMask.v
theories/SelfTestModel.v
theories/PropsSelfTest.v
theories/PathModel.v
theories/PathSpec.v
theories/PropsPath.v
theories/ProgModel.v
theories/ProgProofs.v
theories/PropsProg.v
theories/OrigProgModel.v
theories/PropsOrigProg.v
theories/DelProgModel.v
theories/PropsDelProg.v
theories/ProtoModel.v
theories/ProtoProofs.v
theories/PropsProto.v
theories/ProtoCodec.v
theories/PropsCodec.v
theories/NetModel.v
theories/PropsNet.v
theories/PropsPsiCrash.v
theories/PropsDelCrash.v
theories/EndModel.v
theories/PropsEnd.v
theories/PropsEndAll.v
theories/GcModel.v
theories/GcProofs.v
theories/GcCrash.v
theories/PropsGc.v
theories/StackModel.v
theories/StackProofs.v
theories/StackPsi.v
theories/PropsStack.v
theories/OwnModel.v
theories/PropsOwn.v
theories/OwnStackModel.v
theories/PropsOwnStack.v
