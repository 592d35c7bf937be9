-Q theories Verif
theories/Base.v
theories/ModelWord.v
theories/ModelBits.v
theories/ModelFloat.v
theories/ModelCrc.v
theories/ModelTrans.v
theories/ModelVM.v
theories/SpecBytes.v
theories/LemBase.v
theories/LemWord.v
theories/LemBits.v
theories/SpecVM.v
theories/LemAct.v
theories/LemSafe.v
theories/LemRun.v
theories/Samples.v
theories/LemSafety.v
theories/PropSafety.v
theories/LemWire.v
theories/LemInstr.v
theories/LemField.v
theories/LemTrans.v
theories/PropWire.v
theories/LemCheck.v
theories/PropCheck.v
theories/LemStr.v
theories/LemExpr.v
theories/LemArr.v
theories/LemStop.v
theories/LemTerm.v
theories/PropRun.v
theories/LemPrefix.v
theories/SpecMsg.v
theories/LemLock.v
theories/PropMsg.v
theories/PropInstr.v
theories/SpecCrc.v
theories/LemCrc.v
theories/LemSeal.v
theories/PropCrc.v
theories/ModelVerify.v
theories/SpecVerify.v
theories/LemVerify.v
theories/LemPlain.v
theories/PropVerify.v
theories/ModelImage.v
theories/SpecImage.v
theories/LemImage.v
theories/PropImage.v
theories/ModelText.v
theories/SpecText.v
theories/LemText.v
theories/LemPunct.v
theories/LemLex.v
theories/PropText.v
theories/ModelFmt.v
theories/SpecFmt.v
theories/LemFmt.v
theories/LemFmtAgain.v
theories/LemFmtCode.v
theories/LemFmtSame.v
theories/PropFmt.v
theories/ModelNames.v
theories/SpecNames.v
theories/LemNames.v
theories/LemKept.v
theories/PropNames.v
theories/ModelParse.v
theories/ModelSchema.v
theories/SpecParse.v
theories/LemParse.v
theories/PropParse.v
theories/LemGrow.v
theories/SpecFlow.v
theories/LemFlow.v
theories/LemLayout.v
theories/PropFlow.v
theories/SpecPacket.v
theories/LemPacket.v
theories/LemSend.v
theories/SpecMessage.v
theories/LemMessage.v
theories/LemAccept.v
theories/PropPacket.v
theories/SpecSource.v
theories/LemSource.v
theories/LemCompile.v
theories/LemMeaning.v
theories/LemRound.v
theories/PropSource.v
theories/ModelJson.v
theories/ModelHex.v
theories/SpecHex.v
theories/LemHex.v
theories/SpecHost.v
theories/LemHost.v
theories/LemTold.v
theories/ModelGo.v
theories/SpecGo.v
theories/LemGo.v
theories/SpecReal.v
theories/LemReal.v
theories/LemScale.v
theories/PropScale.v
theories/SpecJson.v
theories/LemJnum.v
theories/LemJson.v
theories/LemCli.v
theories/PropJson.v
theories/PropHex.v
theories/PropHost.v
theories/PropGo.v
theories/LemEnds.v
theories/LemMono.v
theories/LemErr.v
theories/SpecGrammar.v
theories/LemGrammar.v
theories/LemGrammarField.v
theories/LemGrammarStmt.v
theories/LemGrammarFile.v
theories/PropEnds.v
theories/PropGrammar.v
theories/SpecNest.v
theories/LemNest.v
theories/LemNestFile.v
theories/LemNestWire.v
theories/LemNestRun.v
theories/PropNest.v
theories/SpecNestJson.v
theories/LemNestJson.v
theories/LemNestCli.v
theories/PropNestJson.v
theories/SpecParts.v
theories/LemParts.v
theories/LemPartsFile.v
theories/LemPartsWire.v
theories/LemPartsBits.v
theories/LemPartsNum.v
theories/LemPartsRun.v
theories/PropParts.v
theories/SpecRead.v
theories/LemReadBytes.v
theories/LemReadVM.v
theories/LemRead.v
theories/PropRead.v
theories/SpecAlike.v
theories/LemAlike.v
theories/PropAlike.v
theories/ModelInspect.v
theories/SpecInspect.v
theories/LemInspect.v
theories/LemListing.v
theories/LemLossless.v
theories/LemInspectFile.v
theories/PropInspect.v
theories/ModelTool.v
theories/SpecTool.v
theories/LemTool.v
theories/LemToolRun.v
theories/PropTool.v
theories/ModelLsp.v
theories/SpecLsp.v
theories/LemLsp.v
theories/PropLsp.v
theories/SpecEvolve.v
theories/LemEvolve.v
theories/PropEvolve.v
theories/SpecLoad.v
theories/LemLoad.v
theories/PropLoad.v
theories/ModelDiag.v
theories/SpecDiag.v
theories/LemSite.v
theories/LemPlace.v
theories/LemDiag.v
theories/PropDiag.v
theories/PropSite.v
theories/SpecArrays.v
theories/LemArrays.v
theories/LemArraysRun.v
theories/PropArrays.v
theories/SpecCalm.v
theories/LemCalm.v
theories/PropCalm.v
theories/ModelComplete.v
theories/SpecComplete.v
theories/LemComplete.v
theories/LemOutline.v
theories/LemOffers.v
theories/PropComplete.v
theories/PropCases.v
theories/LemUses.v
theories/PropUses.v
theories/LemUnsaved.v
theories/ModelSession.v
theories/SpecSession.v
theories/LemSession.v
theories/PropSession.v
theories/ModelBindings.v
theories/SpecBindings.v
theories/LemBindings.v
theories/LemPascal.v
theories/PropBindings.v
theories/SpecFrames.v
theories/LemFrameBits.v
theories/LemFrames.v
theories/PropFrames.v
theories/SpecHostile.v
theories/LemHostile.v
theories/LemHostileFile.v
theories/LemHostileLists.v
theories/LemHostileSource.v
theories/PropHostile.v
theories/SpecHalts.v
theories/LemHalts.v
theories/LemHaltsFile.v
theories/PropHalts.v
theories/LemFields.v
theories/PropFields.v
