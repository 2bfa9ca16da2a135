-Q theories Verif
theories/ListAux.v
theories/Bits.v
theories/Bitstream.v
theories/BitstreamProofs.v
theories/BitstreamProofs2.v
theories/StreamSpec.v
theories/StreamRuns.v
theories/PropertiesZfpStream.v
theories/EmbedSpec.v
theories/ZfpCodec.v
theories/ZfpCodecProofs.v
theories/ZfpCodecProofs2.v
theories/ZfpCodecProofs3.v
theories/EmbedProofs.v
theories/EmbedRuns.v
theories/PropertiesZfpEmbed.v
theories/BlockSpec.v
theories/ZfpXform.v
theories/LiftProofs.v
theories/XformProofs.v
theories/XformProofs2.v
theories/NegaProofs.v
theories/DecodeLocal.v
theories/BlockProofs.v
theories/PropertiesZfpBlock.v
theories/ArraySpec.v
theories/ZfpArray.v
theories/ArrayProofs.v
theories/ArrayProofs2.v
theories/ArrayProofs3.v
theories/ArrayProofs4.v
theories/ZfpPar.v
theories/ParProofs.v
theories/PropertiesZfpArray.v
theories/ZfpFloat.v
theories/FloatProofs.v
theories/CodecArray.v
theories/FloatProofs2.v
theories/FloatSpec.v
theories/PropertiesZfpFloat.v
theories/ZfpApi.v
theories/PropertiesZfpApi.v
theories/HeaderProofs.v
theories/PropertiesZfpHeader.v
theories/ParSpec.v
theories/GetPars.v
theories/GetParsProofs.v
theories/PropertiesGetPars.v
theories/FdMachine.v
theories/FdKernels.v
theories/FdProofs.v
theories/FdSpec.v
theories/FdReads.v
theories/FdBounds.v
theories/FdRace.v
theories/FdLinear.v
theories/FdLocal.v
theories/FdSchedules.v
theories/PropertiesFd.v
theories/FdScheme.v
theories/PropertiesFdScheme.v
theories/FdOutput.v
theories/FdOutputProofs.v
theories/PropertiesFdOutput.v
theories/Marchenko.v
theories/MarchenkoSpec.v
theories/MarchenkoProofs.v
theories/MarchenkoProofs2.v
theories/MarchenkoProofs3.v
theories/PropertiesMarchenko.v
theories/PropertiesMarchenkoTaper.v
theories/FftSize.v
theories/PropertiesFftSize.v
theories/PropertiesFftLog.v
theories/KissFft.v
theories/FftSpec.v
theories/FftAux.v
theories/FftInverse.v
theories/KissFftProofs.v
theories/PropertiesKissFft.v
theories/Pfa.v
theories/PfaModules.v
theories/PfaProofs.v
theories/PropertiesPfa.v
theories/LibFft.v
theories/PropertiesLibFft.v
theories/PropertiesDft.v
theories/PropertiesRealFft.v
theories/FftLayout.v
theories/PropertiesFftLayout.v
theories/ZfpCache.v
theories/CacheSpec.v
theories/CacheGeom.v
theories/CacheGeom2.v
theories/CacheStore.v
theories/CacheTags.v
theories/CacheHistory.v
theories/CacheProofs.v
theories/PropertiesZfpCache.v
theories/SuFile.v
theories/SuSpec.v
theories/SuProofs.v
theories/SuProofs2.v
theories/SuProofs3.v
theories/PropertiesSu.v
theories/Makemod.v
theories/MakemodSpec.v
theories/MakemodProofs.v
theories/MakemodProofs2.v
theories/MakemodProofs3.v
theories/MakemodProofs4.v
theories/MakemodLayers.v
theories/MakemodSmooth.v
theories/PropertiesMakemod.v
theories/Fconv.v
theories/FconvSpec.v
theories/FconvProofs.v
theories/PropertiesFconv.v
theories/PropertiesFconv2.v
theories/PropertiesFconv3.v
theories/ReadModel.v
theories/ReadModelSpec.v
theories/ReadModelProofs.v
theories/PropertiesReadModel.v
theories/ViscoSpec.v
theories/Visco.v
theories/ViscoProofs.v
theories/PropertiesVisco.v
theories/RecvSpec.v
theories/Recv.v
theories/RecvProofs.v
theories/PropertiesRecv.v
theories/CpmlSpec.v
theories/Cpml.v
theories/CpmlProofs.v
theories/PropertiesCpml.v
theories/SourceSpec.v
theories/Source.v
theories/SourceProofs.v
theories/PropertiesSource.v
theories/WaveletSpec.v
theories/Wavelet.v
theories/WaveletProofs.v
theories/PropertiesWavelet.v
theories/PropertiesWavelet2.v
theories/BasopSpec.v
theories/Basop.v
theories/BasopProofs.v
theories/PropertiesBasop.v
theories/PropertiesBasop2.v
theories/FreeSurfaceSpec.v
theories/FreeSurface.v
theories/PropertiesFreeSurface.v
theories/PropertiesFreeSurface2.v
theories/BodiesSpec.v
theories/Bodies.v
theories/PropertiesBodies.v
theories/CorrvirSpec.v
theories/Corrvir.v
theories/PropertiesCorrvir.v
theories/PropertiesCorrvir2.v
theories/SmoothSpec.v
theories/Smooth.v
theories/PropertiesSmooth.v
theories/Padmodel.v
theories/PropertiesPadmodel.v
theories/ReshapeSpec.v
theories/Reshape.v
theories/PropertiesReshape.v
theories/Kxwfilt.v
theories/PropertiesKxwfilt.v
theories/Mutesnap.v
theories/PropertiesMutesnap.v
