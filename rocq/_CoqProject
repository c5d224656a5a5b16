-Q theories Verif
theories/Base.v
theories/BaseProofs.v
theories/DtypeModel.v
theories/QuantModel.v
theories/QuantProofs.v
theories/DtypeProofs.v
theories/DtypeArithModel.v
theories/DtypeArithProofs.v
theories/LutModel.v
theories/LutProofs.v
theories/PropCore.v
theories/PropLut.v
theories/QuboModel.v
theories/SpecQubo.v
theories/QuboProofs.v
theories/QuboEnergy.v
theories/QuboMore.v
theories/PropQubo.v
theories/FcModel.v
theories/FcProofs.v
theories/FcLayer.v
theories/PropFc.v
theories/EngineModel.v
theories/EngineProofs.v
theories/PropEngine.v
theories/OnnxModel.v
theories/PropOnnx.v
theories/LstmModel.v
theories/LstmProofs.v
theories/PropLstm.v
theories/DistModel.v
theories/DistProofs.v
theories/DistClone.v
theories/PropDist.v
theories/PropRelu.v
theories/OptModel.v
theories/PropOpt.v
theories/NodeModel.v
theories/PropNode.v
theories/PropNodeLut.v
theories/EqModel.v
theories/PropEq.v
theories/BfsProofs.v
theories/PropBfs.v
theories/AnnealModel.v
theories/PropAnneal.v
theories/CollModel.v
theories/PropColl.v
theories/BuildModel.v
theories/PropBuild.v
theories/ConvModel.v
theories/PropConv.v
theories/FpgaModel.v
theories/PropFpga.v
theories/PropAct.v
theories/PipeModel.v
theories/PipeSpec.v
theories/PipeProofs.v
theories/PropPipe.v
theories/KLstmModel.v
theories/KLstmSpec.v
theories/KLstmProofs.v
theories/KLstmError.v
theories/PropKLstm.v
theories/PropOnnxSig.v
theories/RPipeSpec.v
theories/RPipeProofs.v
theories/PropRPipe.v
theories/FloatModel.v
theories/FloatProofs.v
theories/FloatQuant.v
theories/PropFloat.v
theories/FloatDistModel.v
theories/FloatDist.v
theories/PropFloatDist.v
theories/TfliteModel.v
theories/PropTflite.v
theories/PropTfliteRun.v
theories/ScipyModel.v
theories/PropScipy.v
theories/FloatFcModel.v
theories/PropFloatFc.v
theories/FloatEngineModel.v
theories/PropFloatNet.v
theories/QuboDeployModel.v
theories/PropQuboDeploy.v
theories/PropQaoa.v
theories/ParamAnnealModel.v
theories/PropParamAnneal.v
theories/CertSpec.v
theories/PropCert.v
theories/ExportModel.v
theories/ExportSpec.v
theories/PropExport.v
theories/TuneModel.v
theories/PropTune.v
theories/LossModel.v
theories/PropLoss.v
theories/KjModel.v
theories/PropKj.v
theories/QuboTuneModel.v
theories/PropQuboTune.v
theories/RnnModel.v
theories/RnnSpec.v
theories/RnnProofs.v
theories/PropRnn.v
theories/VecModel.v
theories/PropVec.v
theories/FloatLstmModel.v
theories/FloatLstmProofs.v
theories/PropFloatLstm.v
theories/FloatOnnxModel.v
theories/PropFloatOnnx.v
theories/FloatLstmRun.v
theories/PropFloatLstmRun.v
theories/FloatKLstmModel.v
theories/FloatKLstmSpec.v
theories/FloatKLstm.v
theories/PropFloatKLstm.v
theories/FloatOnnxNetModel.v
theories/PropFloatOnnxNet.v
theories/FloatPipeModel.v
theories/FloatPipe.v
theories/PropFloatPipe.v
theories/NoiseModel.v
theories/PropNoise.v
theories/PropLstmStep.v
theories/CompareModel.v
theories/PropCompare.v
theories/PropBroadcast.v
theories/PropRowwise.v
theories/PropRowwiseQ.v
