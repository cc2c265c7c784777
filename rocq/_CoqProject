-Q theories Verif
theories/Base.v
theories/BitArrayModel.v
theories/BitArraySpec.v
theories/BitArrayProofs.v
theories/BitArrayProps.v
theories/LineRegModel.v
theories/LineRegSpec.v
theories/LineRegProofs.v
theories/LineRegProofs2.v
theories/LineRegProofs3.v
theories/LineRegProps.v
theories/ParserModel.v
theories/ParserRel.v
theories/ParserInv.v
theories/ParserSpec.v
theories/ParserTrace.v
theories/ParserParse.v
theories/ParserTerm.v
theories/ParserTotal.v
theories/ParserProps.v
theories/LStrModel.v
theories/LStrSpec.v
theories/LStrProofs.v
theories/LStrProps.v
theories/EncModel.v
theories/EncSpec.v
theories/EncProofs.v
theories/EncProps.v
theories/NumModel.v
theories/NumSpec.v
theories/NumProofs.v
theories/NumProps.v
theories/XmlModel.v
theories/RegionModel.v
theories/RegionSpec.v
theories/RegionProofs.v
theories/RegionProps.v
theories/HrcModel.v
theories/HrcSpec.v
theories/HrcInv.v
theories/HrcLoad.v
theories/HrcLinks.v
theories/HrcTop.v
theories/HrcNames.v
theories/HrcProps.v
theories/RuleSpec.v
theories/RuleProofs.v
theories/RuleProps.v
theories/FileTypeModel.v
theories/FileTypeSpec.v
theories/FileTypeProps.v
theories/ParserDepth.v
theories/ParserDepthProps.v
theories/KwModel.v
theories/KwSpec.v
theories/KwProofs.v
theories/KwProps.v
theories/PathModel.v
theories/PathSpec.v
theories/PathProofs.v
theories/PathProps.v
theories/StoreModel.v
theories/StoreSpec.v
theories/StoreProps.v
theories/LogCatModel.v
theories/LogCatSpec.v
theories/LogCatProps.v
theories/RxModel.v
theories/RxSpec.v
theories/RxBounds.v
theories/RxLoc.v
theories/RxHist.v
theories/RxTerm.v
theories/RxAnch.v
theories/RxProps.v
theories/RxLink.v
theories/ViewModel.v
theories/ViewSpec.v
theories/ViewProps.v
theories/ParserSim.v
theories/ParserKids.v
theories/ParserCross.v
theories/ParserTail.v
theories/ParserLook.v
theories/ParserResume.v
theories/ParserLimit.v
theories/ParserResumeSpec.v
theories/ParserHist.v
theories/ParserResumeProps.v
theories/ParserCacheSpec.v
theories/ParserWf.v
theories/ParserCacheProps.v
theories/EdModel.v
theories/EdSpec.v
theories/EdParse.v
theories/EdProofs.v
theories/EdProps.v
theories/PairModel.v
theories/PairSpec.v
theories/PairProps.v
theories/OutModel.v
theories/OutSpec.v
theories/OutProofs.v
theories/OutProps.v
theories/VTListModel.v
theories/VTListSpec.v
theories/VTListProofs.v
theories/VTListProps.v
theories/RxDen.v
theories/RxEv.v
theories/RxSemA.v
theories/RxSemB.v
theories/RxSemC.v
theories/RxSemD.v
theories/RxSemE.v
theories/RxLang.v
theories/RxSemProps.v
theories/RxClass.v
theories/RxCompile.v
theories/RxSyn.v
theories/RxSynLex.v
theories/RxSynLex2.v
theories/RxSynLex3.v
theories/RxSynTree.v
theories/RxSynStruct.v
theories/RxSynSound.v
theories/RxSynComp.v
theories/RxSynProps.v
theories/ClsSpec.v
theories/ClsProofs.v
theories/ClsProps.v
theories/CharSetModel.v
theories/CharSetSpec.v
theories/CharSetProofs.v
theories/CharSetProps.v
theories/LegClassModel.v
theories/LegClassSpec.v
theories/LegClassProofs.v
theories/LegClassProps.v
theories/CharTabData.v
theories/CharTabModel.v
theories/CharTabProofs.v
theories/CharTabSpec.v
theories/CharTabProps.v
theories/EncTabData.v
theories/EncTabModel.v
theories/EncTabSpec.v
theories/EncTabProofs.v
theories/EncTabProps.v
theories/DetectModel.v
theories/DetectSpec.v
theories/DetectProofs.v
theories/DetectProps.v
theories/ConvModel.v
theories/ConvProps.v
theories/WriteModel.v
theories/WriteSpec.v
theories/WriteProps.v
theories/ConsoleModel.v
theories/ConsoleProps.v
theories/ArgsModel.v
theories/ArgsProps.v
theories/ViewerModel.v
theories/ViewerProps.v
theories/ViewTagSpec.v
theories/ViewTags.v
theories/ViewTagProps.v
theories/ShowSpec.v
theories/ShowProps.v
theories/RefSpec.v
theories/RefProofs.v
theories/RefParse.v
theories/RefProps.v
theories/MapModel.v
theories/MapSpec.v
theories/MapProps.v
theories/SaveSpec.v
theories/SaveProps.v
theories/XmlReadModel.v
theories/XmlReadSpec.v
theories/XmlReadProps.v
theories/GramSpec.v
theories/GramProps.v
theories/LibGram.v
theories/DirSpec.v
theories/DirProps.v
theories/CatLoadModel.v
theories/CatLoadSpec.v
theories/CatLoadProps.v
