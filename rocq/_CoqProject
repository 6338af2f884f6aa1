-Q theories Verif
theories/Base.v
theories/BuddyModel.v
theories/BuddyProofs.v
theories/BuddySpec.v
theories/BuddyMore.v
theories/PropertiesBuddy.v
theories/ZenModel.v
theories/ZenProofs.v
theories/ZenSpec.v
theories/ZenMore.v
theories/PropertiesZen.v
theories/RadixModel.v
theories/RadixSpec.v
theories/RadixProofs.v
theories/RadixMore.v
theories/RadixHist.v
theories/EvictSpec.v
theories/EvictProofs.v
theories/EvictHist.v
theories/PropertiesRadix.v
theories/DTypeModel.v
theories/ParamModel.v
theories/ParamSpec.v
theories/ParamProofs.v
theories/ParamMore.v
theories/PropertiesParam.v
theories/TensorModel.v
theories/TensorSpec.v
theories/TensorProofs.v
theories/TensorViews.v
theories/TensorSplit.v
theories/TensorConcat.v
theories/TensorStack.v
theories/TensorPermute.v
theories/TensorTranspose.v
theories/TensorContig.v
theories/PropertiesTensor.v
theories/KVModel.v
theories/KVSpec.v
theories/KVProofs.v
theories/KVSub.v
theories/KVDyn.v
theories/KVOver.v
theories/PropertiesKV.v
theories/TokModel.v
theories/TokSpec.v
theories/Utf8Proofs.v
theories/BpeProofs.v
theories/TrieProofs.v
theories/PretokProofs.v
theories/PropertiesTok.v
theories/SymModel.v
theories/SymSpec.v
theories/SymProofs.v
theories/SymPrint.v
theories/PropertiesSym.v
theories/PoolModel.v
theories/PoolSpec.v
theories/PoolProofs.v
theories/PoolLive.v
theories/PropertiesPool.v
theories/ServiceModel.v
theories/ServiceSpec.v
theories/ServiceProofs.v
theories/ServiceProofs2.v
theories/ServiceProofs3.v
theories/PropertiesService.v
theories/GenModel.v
theories/GenSpec.v
theories/GenProofs.v
theories/PropertiesGen.v
theories/OpsModel.v
theories/OpsSpec.v
theories/OpsProofs.v
theories/OpsIndex.v
theories/OpsMask.v
theories/OpsSort.v
theories/OpsTopk.v
theories/OpsSum.v
theories/PropertiesOps.v
theories/MatModel.v
theories/MatSpec.v
theories/MatProofs.v
theories/MatKernel.v
theories/MatBlas.v
theories/MatGguf.v
theories/MatOps.v
theories/PropertiesMat.v
theories/AttnModel.v
theories/AttnSpec.v
theories/AttnProofs.v
theories/AttnOps.v
theories/PropertiesAttn.v
theories/ExpModel.v
theories/ExpProofs.v
theories/NumModel.v
theories/NumSpec.v
theories/NumProofs.v
theories/NumSoftmax.v
theories/NumNorm.v
theories/NumNormOps.v
theories/NumAct.v
theories/PropertiesNum.v
theories/RopeModel.v
theories/RopeSpec.v
theories/RopeProofs.v
theories/RopeOps.v
theories/RopeTables.v
theories/RopeMath.v
theories/PropertiesRope.v
theories/QuantModel.v
theories/QuantSpec.v
theories/QuantFloat.v
theories/QuantProofs.v
theories/QuantQ4.v
theories/QuantQ8K.v
theories/QuantDot.v
theories/QuantLinear.v
theories/QuantRows.v
theories/PropertiesQuant.v
theories/JitModel.v
theories/JitSpec.v
theories/JitProofs.v
theories/JitCode.v
theories/JitMachine.v
theories/JitLink.v
theories/JitRun.v
theories/JitNames.v
theories/PropertiesJit.v
theories/MemModel.v
theories/MemSpec.v
theories/MemProofs.v
theories/MemInv.v
theories/MemSteps.v
theories/MemRun.v
theories/PropertiesMem.v
theories/ConvModel.v
theories/ConvSpec.v
theories/ConvProofs.v
theories/ConvOne.v
theories/ConvThree.v
theories/ConvTwo.v
theories/PropertiesConv.v
theories/NnModel.v
theories/NnSpec.v
theories/NnProofs.v
theories/NnLoad.v
theories/NnMain.v
theories/PropertiesNn.v
theories/WpModel.v
theories/WpSpec.v
theories/WpUtf8.v
theories/WpGreedy.v
theories/WpBasic.v
theories/WpChat.v
theories/WpMini.v
theories/PropertiesWp.v
theories/SessModel.v
theories/SessSpec.v
theories/SessAlloc.v
theories/SessProofs.v
theories/SessRun.v
theories/PropertiesSess.v
theories/AotModel.v
theories/AotSpec.v
theories/AotProofs.v
theories/AotGraph.v
theories/AotRun.v
theories/AotInv.v
theories/AotSel.v
theories/AotOver.v
theories/AotEntries.v
theories/PropertiesAot.v
theories/VlModel.v
theories/VlSpec.v
theories/VlProofs.v
theories/VlGrid.v
theories/VlRot.v
theories/VlPos.v
theories/VlWin.v
theories/VlWin2.v
theories/VlRope.v
theories/PropertiesVl.v
theories/VlImgModel.v
theories/VlImg.v
theories/VlImg2.v
theories/PropertiesVlImg.v
theories/VlSizeModel.v
theories/VlSize.v
theories/VlSize2.v
theories/VlSize3.v
theories/PropertiesVlSize.v
theories/AscModel.v
theories/AscProofs.v
theories/AscSpec.v
theories/AscHist.v
theories/PropertiesAsc.v
theories/ArgModel.v
theories/ArgSpec.v
theories/ArgProofs.v
theories/PropertiesArg.v
theories/CpmModel.v
theories/CpmSpec.v
theories/CpmSlice.v
theories/CpmPix.v
theories/CpmText.v
theories/CpmVis.v
theories/CpmFloat.v
theories/CpmAudioModel.v
theories/CpmAudio.v
theories/PropertiesCpm.v
theories/MoeModel.v
theories/MoeSpec.v
theories/MoeProofs.v
theories/DivModel.v
theories/DivProofs.v
theories/DivLoop.v
theories/PropertiesMoe.v
theories/RedModel.v
theories/RedSpec.v
theories/RedProofs.v
theories/RedOp.v
theories/RedKernels.v
theories/PropertiesRed.v
theories/FsqModel.v
theories/FsqSpec.v
theories/FsqRound.v
theories/FsqProofs.v
theories/FsqCodes.v
theories/FsqQuant.v
theories/FsqResidual.v
theories/PropertiesFsq.v
theories/MropeModel.v
theories/MropeSpec.v
theories/MropeProofs.v
theories/PropertiesMrope.v
theories/InterpModel.v
theories/InterpSpec.v
theories/InterpProofs.v
theories/InterpKernels.v
theories/InterpOps.v
theories/InterpMath.v
theories/PropertiesInterp.v
theories/FftModel.v
theories/FftSpec.v
theories/FftProofs.v
theories/FftBits.v
theories/FftRadix.v
theories/FftBluestein.v
theories/FftStft.v
theories/FftIstft.v
theories/PropertiesFft.v
theories/BitsModel.v
theories/BitsSpec.v
theories/BitsProofs.v
theories/BitsPack.v
theories/BitsDispatch.v
theories/BitsWidth.v
theories/BitsValues.v
theories/BitsWeights.v
theories/BitsUnpack.v
theories/PropertiesBits.v
theories/IptrModel.v
theories/IptrSpec.v
theories/IptrProofs.v
theories/IptrEffects.v
theories/PropertiesIptr.v
theories/FillModel.v
theories/FillSpec.v
theories/FillProofs.v
theories/PropertiesFill.v
theories/ChunkModel.v
theories/ChunkSpec.v
theories/ChunkProofs.v
theories/PropertiesChunk.v
theories/StreamModel.v
theories/StreamSpec.v
theories/StreamProofs.v
theories/PropertiesStream.v
theories/WindowModel.v
theories/WindowSpec.v
theories/PropertiesWindow.v
theories/CodesModel.v
theories/CodesSpec.v
theories/CodesProofs.v
theories/PropertiesCodes.v
theories/WarpModel.v
theories/WarpSpec.v
theories/WarpProofs.v
theories/PropertiesWarp.v
theories/CropModel.v
theories/CropSpec.v
theories/CropProofs.v
theories/PropertiesCrop.v
theories/OcrModel.v
theories/OcrProofs.v
theories/PropertiesOcr.v
theories/SplitModel.v
theories/SplitSpec.v
theories/PropertiesSplit.v
theories/GridModel.v
theories/PropertiesGrid.v
theories/TransModel.v
theories/PropertiesTrans.v
theories/TrArmModel.v
theories/TrArmProofs.v
theories/TrArmOps.v
theories/PropertiesTrArm.v
