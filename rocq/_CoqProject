-Q theories Verif
theories/Base.v
theories/ProofsBase.v
theories/ModelValue.v
theories/ProofsValue.v
theories/PropsValue.v
theories/ModelFloat.v
theories/ModelInt.v
theories/ProofsInt.v
theories/ProofsGcd.v
theories/ProofsFloat.v
theories/PropsInt.v
theories/ModelArray.v
theories/ProofsArray.v
theories/ProofsArray2.v
theories/ProofsArray3.v
theories/ModelSort.v
theories/ProofsSort.v
theories/ProofsSort2.v
theories/PropsArray.v
theories/ModelString.v
theories/ProofsString.v
theories/ProofsString2.v
theories/ProofsString3.v
theories/PropsString.v
theories/ModelHash.v
theories/ProofsHash.v
theories/ProofsHash2.v
theories/ProofsHash3.v
theories/ProofsHash4.v
theories/ModelIdent.v
theories/ProofsIdent.v
theories/PropsHash.v
theories/ModelGC.v
theories/ProofsGC.v
theories/ProofsGC2.v
theories/ProofsGC3.v
theories/ProofsGC4.v
theories/PropsGC.v
theories/ModelClass.v
theories/SpecClass.v
theories/ProofsClass.v
theories/ProofsClass2.v
theories/ProofsClass3.v
theories/ProofsClass4.v
theories/ProofsClass5.v
theories/ProofsClass6.v
theories/ProofsClass7.v
theories/ProofsClass8.v
theories/PropsClass.v
theories/ModelRange.v
theories/ProofsRange.v
theories/PropsRange.v
theories/ModelText.v
theories/ProofsText.v
theories/PropsText.v
theories/ModelArgs.v
theories/SpecArgs.v
theories/ProofsArgs.v
theories/ProofsArgs2.v
theories/PropsArgs.v
theories/ModelInst.v
theories/ProofsInst.v
theories/PropsInst.v
theories/ModelCodegen.v
theories/ModelScope.v
theories/ModelVM.v
theories/SpecCore.v
theories/ProofsCore1.v
theories/ProofsCore2.v
theories/ProofsCore3.v
theories/ProofsCore4.v
theories/ProofsCore5.v
theories/ProofsCore6.v
theories/ProofsCore7.v
theories/ProofsDefined.v
theories/ProofsCore8.v
theories/SpecScope.v
theories/ProofsScope.v
theories/PropsScope.v
theories/SpecIntPrims.v
theories/ProofsIntPrims.v
theories/PropsCore.v
theories/PropsNav.v
theories/SpecOpt.v
theories/ProofsShape.v
theories/ProofsOpt.v
theories/ProofsOpt2.v
theories/ProofsOpt3.v
theories/PropsOpt.v
theories/ModelFrame.v
theories/SpecFrame.v
theories/ProofsFrame.v
theories/PropsFrame.v
theories/ProofsFrame2.v
theories/ProofsFrame3.v
theories/ProofsFrame4.v
theories/ProofsFrame5.v
theories/ProofsFrame6.v
theories/ProofsFrame7.v
theories/ProofsFrame8.v
theories/ProofsFrame9.v
theories/ProofsFrame10.v
theories/ProofsFrame11.v
theories/ProofsFrame12.v
theories/PropsFrame2.v
theories/ModelMark.v
theories/SpecMark.v
theories/ProofsMark.v
theories/PropsMark.v
theories/ModelIter.v
theories/SpecIter.v
theories/ProofsIter.v
theories/PropsIter.v
theories/ModelFormat.v
theories/SpecFormat.v
theories/PropsFormat.v
theories/ModelReflect.v
theories/SpecReflect.v
theories/PropsReflect.v
theories/ModelSearch.v
theories/PropsSearch.v
theories/ModelHashIter.v
theories/PropsHashIter.v
theories/ModelConvert.v
theories/PropsConvert.v
theories/ModelGlob.v
theories/PropsGlob.v
theories/ModelPath.v
theories/SpecPath.v
theories/ProofsPath.v
theories/ProofsPathFs.v
theories/PropsPath.v
theories/ModelRaise.v
theories/SpecRaise.v
theories/ProofsRaise.v
theories/ProofsRaise2.v
theories/ProofsRaise3.v
theories/PropsRaise.v
theories/ModelComplex.v
theories/SpecComplex.v
theories/PropsComplex.v
theories/ModelClassDef.v
theories/SpecClassDef.v
theories/ProofsClassDef.v
theories/PropsClassDef.v
theories/ModelModule.v
theories/SpecModule.v
theories/ProofsModule.v
theories/PropsModule.v
theories/ModelInspect.v
theories/SpecInspect.v
theories/ProofsInspect.v
theories/PropsInspect.v
theories/ModelLoad.v
theories/SpecLoad.v
theories/ProofsLoad.v
theories/ProofsLoadPath.v
theories/PropsLoad.v
theories/ModelMethodObj.v
theories/SpecMethodObj.v
theories/PropsMethodObj.v
theories/ModelOper.v
theories/SpecOper.v
theories/PropsOper.v
theories/ModelBinding.v
theories/SpecBinding.v
theories/ProofsBinding.v
theories/ProofsBinding2.v
theories/PropsBinding.v
theories/ModelSwitch.v
theories/SpecSwitch.v
theories/ProofsSwitch.v
theories/ProofsSwitch2.v
theories/ProofsSwitch3.v
theories/ProofsSwitch4.v
theories/PropsSwitch.v
theories/ModelAlias.v
theories/SpecAlias.v
theories/ProofsAlias.v
theories/PropsAlias.v
theories/ModelKinds.v
theories/SpecKinds.v
theories/PropsKinds.v
theories/ModelControl.v
theories/SpecControl.v
theories/ProofsControl.v
theories/PropsControl.v
theories/ModelParse.v
theories/SpecParse.v
theories/ProofsParse.v
theories/ProofsParse2.v
theories/ProofsParse3.v
theories/ProofsParse4.v
theories/ProofsParse5.v
theories/ProofsParse6.v
theories/ProofsParse7.v
theories/PropsParse.v
theories/ModelFiber.v
theories/SpecFiber.v
theories/ProofsFiber.v
theories/ProofsFiber2.v
theories/ProofsFiber3.v
theories/PropsFiber.v
theories/ModelObject.v
theories/SpecObject.v
theories/ProofsObject.v
theories/PropsObject.v
theories/ProofsObject2.v
theories/PropsObject2.v
theories/ProofsObject3.v
theories/PropsObject3.v
theories/ModelEqual.v
theories/SpecEqual.v
theories/ProofsEqual.v
theories/PropsEqual.v
theories/ModelLexer.v
theories/SpecLexer.v
theories/ProofsLexer.v
theories/ProofsLexer2.v
theories/ProofsLexer3.v
theories/ProofsLexer4.v
theories/ProofsLexer5.v
theories/ProofsLexer6.v
theories/ProofsLexer7.v
theories/PropsLexer.v
theories/ModelSource.v
theories/SpecSource.v
theories/ProofsSource.v
theories/ProofsSource2.v
theories/PropsSource.v
theories/ModelRegexp.v
theories/SpecRegexp.v
theories/ProofsRegexp.v
theories/ProofsRegexp2.v
theories/PropsRegexp.v
theories/ModelLiteral.v
theories/SpecLiteral.v
theories/ProofsLiteral.v
theories/PropsLiteral.v
theories/ModelCall.v
theories/SpecCall.v
theories/PropsCall.v
theories/PropsKeywords.v
theories/PropsAssign.v
theories/PropsDefined.v
theories/ModelEnum.v
theories/SpecEnum.v
theories/ProofsEnum.v
theories/ProofsEnum2.v
theories/PropsEnum.v
theories/ModelQuote.v
theories/SpecQuote.v
theories/ProofsQuote.v
theories/ProofsQuote2.v
theories/ProofsQuote3.v
theories/PropsQuote.v
theories/ModelParams.v
theories/SpecParams.v
theories/ProofsParams0.v
theories/ProofsParams.v
theories/ProofsParams2.v
theories/ProofsParams3.v
theories/PropsParams.v
theories/ModelFlow.v
theories/SpecFlow.v
theories/ProofsFlow.v
theories/PropsFlow.v
