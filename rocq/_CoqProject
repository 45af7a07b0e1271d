-Q theories Verif
theories/Base.v
theories/ScatterModel.v
theories/ScatterProofs.v
theories/SortModel.v
theories/SortProofs.v
theories/GIndexModel.v
theories/GIndexProofs.v
theories/CommModel.v
theories/CommProofs.v
theories/PropsScatter.v
theories/PropsGIndex.v
theories/PropsComm.v
theories/CtxModel.v
theories/CtxProofs.v
theories/PropsCtx.v
theories/LatModel.v
theories/LatProofs.v
theories/PropsLat.v
theories/GSphereModel.v
theories/GSphereProofs.v
theories/PropsGSphere.v
theories/CBase.v
theories/FFTModel.v
theories/FFTSpec.v
theories/FFTProofs.v
theories/FFTProofs2.v
theories/PropsFFT.v
theories/DistModel.v
theories/DistSpec.v
theories/DistProofs.v
theories/DistProofs2.v
theories/DistProofs3.v
theories/PropsDist.v
theories/DistSymmModel.v
theories/PropsSymmDist.v
theories/CrystalModel.v
theories/CrystalProofs.v
theories/PropsCrystal.v
theories/KPtsModel.v
theories/KPtsSpec.v
theories/KPtsProofs.v
theories/PropsKPts.v
theories/BufferModel.v
theories/BufferProofs.v
theories/PropsBuffer.v
theories/ErfBase.v
theories/OccModel.v
theories/OccProofs.v
theories/PropsOcc.v
theories/SmearModel.v
theories/SmearProofs.v
theories/PropsSmear.v
theories/PropsFreeEn.v
theories/CheckModel.v
theories/PropsCheck.v
theories/WfnInitModel.v
theories/PropsWfnInit.v
theories/StartModel.v
theories/PropsStart.v
theories/EpsFileModel.v
theories/PropsEpsFile.v
theories/WfnPyModel.v
theories/PropsWfnPy.v
theories/GemmModel.v
theories/PropsGemm.v
theories/PwDriverModel.v
theories/PropsPwDriver.v
theories/BackendModel.v
theories/PropsBackend.v
theories/EigLibModel.v
theories/PropsEigLib.v
theories/SigmaHpModel.v
theories/PropsSigmaHp.v
theories/ConfigModel.v
theories/PropsConfig.v
theories/LoggerModel.v
theories/LoggerProofs.v
theories/PropsLogger.v
theories/ScfModel.v
theories/PropsScf.v
theories/MixModel.v
theories/MixSpec.v
theories/MixProofs.v
theories/PropsMix.v
theories/KSHamModel.v
theories/KSHamSpec.v
theories/KSHamProofs.v
theories/PropsKSHam.v
theories/DavModel.v
theories/DavSpec.v
theories/DavProofs.v
theories/DavExample.v
theories/PropsDav.v
theories/SymmModel.v
theories/SymmSpec.v
theories/SymmProofs.v
theories/SymmProofs2.v
theories/SymmProofs3.v
theories/PropsSymm.v
theories/TddftModel.v
theories/TddftSpec.v
theories/TddftProofs.v
theories/TddftProofs2.v
theories/TddftProofs3.v
theories/PropsTddft.v
theories/PotModel.v
theories/PotSpec.v
theories/PotProofs.v
theories/PropsPot.v
theories/EwaldModel.v
theories/EwaldSpec.v
theories/EwaldProofs.v
theories/PropsEwald.v
theories/LocModel.v
theories/LocSpec.v
theories/LocProofs.v
theories/PropsLoc.v
theories/XcModel.v
theories/XcSpec.v
theories/XcProofs.v
theories/PropsXc.v
theories/IbravModel.v
theories/IbravSpec.v
theories/IbravProofs.v
theories/PropsIbrav.v
theories/NlocModel.v
theories/NlocSpec.v
theories/NlocProofs.v
theories/InterpProofs.v
theories/PropsNloc.v
theories/BesselSpec.v
theories/BesselProofs.v
theories/PropsBessel.v
theories/WfnIOModel.v
theories/WfnIOSpec.v
theories/WfnIOProofs.v
theories/PropsWfnIO.v
theories/GwModel.v
theories/GwSpec.v
theories/GwProofs.v
theories/GwProofs2.v
theories/PropsGw.v
theories/PropsVcoul.v
theories/QeInpModel.v
theories/QeInpSpec.v
theories/QeInpProofs.v
theories/PropsQeInp.v
theories/UpfModel.v
theories/PropsUpf.v
theories/ParseInpModel.v
theories/PropsParseInp.v
theories/BgwInpModel.v
theories/PropsBgwInp.v
theories/SigmaModel.v
theories/SigmaProofs.v
theories/PropsSigma.v
theories/PropsSigmaQ.v
theories/GppModel.v
theories/PropsGpp.v
theories/OpticalModel.v
theories/PropsOptical.v
theories/PropsNlocRad.v
theories/CohsexModel.v
theories/CohsexSpec.v
theories/CohsexProofs.v
theories/PropsCohsex.v
theories/DistBufModel.v
theories/DistBufSpec.v
theories/DistBufProofs.v
theories/PropsDistBuf.v
theories/McVcoulModel.v
theories/McVcoulProofs.v
theories/PropsMcVcoul.v
theories/DistHamModel.v
theories/DistHamProofs.v
theories/PropsDistHam.v
theories/BatchModel.v
theories/BatchSpec.v
theories/BatchProofs.v
theories/PropsBatch.v
theories/VcoulIOModel.v
theories/VcoulIOSpec.v
theories/VcoulIOProofs.v
theories/PropsVcoulIO.v
theories/CommSerialModel.v
theories/CommSerialSpec.v
theories/PropsCommSerial.v
theories/AtomsInpModel.v
theories/AtomsInpSpec.v
theories/PropsAtomsInp.v
theories/EpsScriptModel.v
theories/EpsScriptSpec.v
theories/PropsEpsScript.v
theories/AliasModel.v
theories/AliasSpec.v
theories/PropsAlias.v
theories/RhoFileModel.v
theories/RhoFileSpec.v
theories/PropsRhoFile.v
theories/KListInpModel.v
theories/KListInpSpec.v
theories/PropsKListInp.v
theories/ReportModel.v
theories/ReportSpec.v
theories/ReportProofs.v
theories/PropsReport.v
theories/HamSymModel.v
theories/HamSymSpec.v
theories/HamSymProofs.v
theories/PropsHamSym.v
theories/FactoryModel.v
theories/FactorySpec.v
theories/FactoryProofs.v
theories/PropsFactory.v
theories/VxcModel.v
theories/VxcSpec.v
theories/VxcProofs.v
theories/PropsVxc.v
theories/SigmaPrepModel.v
theories/SigmaPrepSpec.v
theories/SigmaPrepProofs.v
theories/PropsSigmaPrep.v
theories/SplitNlModel.v
theories/SplitNlSpec.v
theories/SplitNlProofs.v
theories/PropsSplitNl.v
theories/LogFileModel.v
theories/LogFileSpec.v
theories/LogFileProofs.v
theories/PropsLogFile.v
theories/LatEqModel.v
theories/PropsLatEq.v
theories/CheckMoreModel.v
theories/PropsCheckMore.v
theories/QeH5Model.v
theories/QeH5Spec.v
theories/PropsQeH5.v
theories/OccIdxModel.v
theories/PropsOccIdx.v
