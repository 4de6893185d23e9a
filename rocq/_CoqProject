-Q theories Verif
theories/BPTree.v
theories/Base.v
theories/BestFirst.v
theories/BestFirstGap.v
theories/BestFirstPos.v
theories/BestFirstRun.v
theories/CacheModel.v
theories/CacheProofs.v
theories/ChainTop.v
theories/ChannelCorr.v
theories/ChannelFading.v
theories/ChannelHist.v
theories/ChannelModel.v
theories/ChannelProofs.v
theories/ChannelRun.v
theories/ChannelSpec.v
theories/ChannelTop.v
theories/Conformance.v
theories/ConvCode.v
theories/ConvMore.v
theories/ConvProofs.v
theories/ConvTerm.v
theories/ConvTop.v
theories/Cplx.v
theories/DspModel.v
theories/DspProofs.v
theories/DspTop.v
theories/FloatRate.v
theories/GFCoset.v
theories/GFField.v
theories/GFModel.v
theories/GFNext.v
theories/GFPoly.v
theories/GFSpec.v
theories/GFTop.v
theories/GrayProofs.v
theories/KbestProofs.v
theories/LdpcAlg.v
theories/LdpcBP.v
theories/LdpcBPSpec.v
theories/LdpcCheck.v
theories/LdpcDecModel.v
theories/LdpcDecProofs.v
theories/LdpcFile.v
theories/LdpcGuar.v
theories/LdpcLinkModel.v
theories/LdpcLinkSpec.v
theories/LdpcLinkTop.v
theories/LdpcModel.v
theories/LdpcProofs.v
theories/LdpcSpec.v
theories/LdpcSym.v
theories/LdpcTop.v
theories/LdpcTree.v
theories/LdpcTreeSpec.v
theories/LegacyGen.v
theories/LegacyModel.v
theories/LegacyOnes.v
theories/LegacyProofs.v
theories/LinksModel.v
theories/LinksProofs.v
theories/LinksSpec.v
theories/LinksTop.v
theories/MimoMargin.v
theories/MimoModel.v
theories/MimoProofs.v
theories/MimoSpec.v
theories/MimoTop.v
theories/ModemModel.v
theories/ModemNoise.v
theories/ModemProofs.v
theories/ModemSoft.v
theories/ModemSpec.v
theories/ModemTop.v
theories/OfdmModel.v
theories/OfdmProofs.v
theories/OfdmSpec.v
theories/OfdmTop.v
theories/P_Chain.v
theories/P_Channel.v
theories/P_Conv.v
theories/P_Dsp.v
theories/P_GF.v
theories/P_Ldpc.v
theories/P_LdpcLink.v
theories/P_Links.v
theories/P_Mimo.v
theories/P_Modem.v
theories/P_Ofdm.v
theories/P_Pn.v
theories/P_Punct.v
theories/P_Seq.v
theories/P_Turbo.v
theories/P_UncodedLink.v
theories/P_Util.v
theories/P_Vit.v
theories/P_VitK7.v
theories/P_Wifi.v
theories/PnMax.v
theories/PunctModel.v
theories/PunctProofs.v
theories/SeqModel.v
theories/SeqProofs.v
theories/TrellisModel.v
theories/TrellisProofs.v
theories/TrellisSpec.v
theories/TurboLinear.v
theories/TurboMap.v
theories/TurboModel.v
theories/TurboProofs.v
theories/TurboSpec.v
theories/TurboTop.v
theories/UncodedLinkModel.v
theories/UncodedLinkSpec.v
theories/UncodedLinkTop.v
theories/UtilModel.v
theories/UtilProofs.v
theories/ViterbiArray.v
theories/ViterbiCore.v
theories/ViterbiErase.v
theories/ViterbiInst.v
theories/ViterbiK7.v
theories/ViterbiModel.v
theories/ViterbiProofs.v
theories/ViterbiReal.v
theories/ViterbiRun.v
theories/ViterbiSpec.v
theories/ViterbiTop.v
theories/WifiLinkModel.v
theories/WifiModel.v
theories/WifiProofs.v
theories/WifiSpec.v
theories/WifiTop.v
theories/ZcProofs.v
