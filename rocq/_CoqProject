-Q theories Verif
theories/PyStr.v
theories/PyErr.v
theories/Regex.v
theories/Utf8.v
theories/IriModel.v
theories/IriSpec.v
theories/IriSplit.v
theories/IriDots.v
theories/IriPct.v
theories/IriAbs.v
theories/IriMisc.v
theories/IriNorm.v
theories/IriRel.v
theories/IriProps.v
theories/SerModel.v
theories/SerSpec.v
theories/SerStream.v
theories/SerPrint.v
theories/SerVisit.v
theories/SerRead.v
theories/SerTree.v
theories/SerNs.v
theories/SerTop.v
theories/SerFail.v
theories/SerDoc.v
theories/SerDocs.v
theories/SerCData.v
theories/SerCanon.v
theories/SerCodec.v
theories/SerProps.v
theories/DomModel.v
theories/DomSpec.v
theories/DomCells.v
theories/DomInv.v
theories/DomOps.v
theories/DomStep.v
theories/DomOrder.v
theories/DomIds.v
theories/DomProps.v
theories/HashModel.v
theories/HashSpec.v
theories/HashProbe.v
theories/HashMap.v
theories/HashProps.v
theories/NsModel.v
theories/NsSpec.v
theories/NsLookup.v
theories/NsProps.v
theories/DtdModel.v
theories/DtdSpec.v
theories/DtdNfa.v
theories/DtdDfa.v
theories/DtdValid.v
theories/DtdProps.v
theories/XpModel.v
theories/XpSpec.v
theories/XpTree.v
theories/XpAxes.v
theories/XpOrder.v
theories/XpSelect.v
theories/XpProps.v
theories/XpPath.v
theories/XpPathSpec.v
theories/XpPathSteps.v
theories/XpPathOrder.v
theories/XpPathEval.v
theories/XpPathProps.v
theories/XpNum.v
theories/XpNumSpec.v
theories/XpNumLemmas.v
theories/XpFuncs.v
theories/XpFuncSpec.v
theories/XpFuncNum.v
theories/XpFuncCmp.v
theories/XpFuncStr.v
theories/XpFuncArith.v
theories/XpFuncProps.v
theories/XpString.v
theories/XpStringSpec.v
theories/XpStringProofs.v
theories/XpStringProps.v
theories/XpNumStr.v
theories/XpNumStrSpec.v
theories/XpNumStrProofs.v
theories/XpNumStrProps.v
theories/PtModel.v
theories/PtSpec.v
theories/PtTree.v
theories/PtDfa.v
theories/PtRun.v
theories/PtNfa.v
theories/PtPath.v
theories/PtDecide.v
theories/PtProps.v
theories/XsTables.v
theories/XsModel.v
theories/XsSpec.v
theories/XsCharset.v
theories/XsProofs.v
theories/XsProps.v
theories/XtPattern.v
theories/XtPatternSpec.v
theories/XtPatternProofs.v
theories/XtPatternProps.v
theories/XtDispatch.v
theories/XtDispatchSpec.v
theories/XtDispatchProofs.v
theories/XtDispatchProps.v
theories/XtSort.v
theories/XtSortSpec.v
theories/XtSortProofs.v
theories/XtSortProps.v
theories/XtImport.v
theories/XtImportSpec.v
theories/XtImportProofs.v
theories/XtImportProps.v
theories/XtVars.v
theories/XtVarsSpec.v
theories/XtVarsProofs.v
theories/XtGlobalsProofs.v
theories/XtVarsProps.v
theories/XtNumber.v
theories/XtNumberSpec.v
theories/XtNumberProofs.v
theories/XtNumberProps.v
theories/XtCount.v
theories/XtCountSpec.v
theories/XtCountProofs.v
theories/XtCountProps.v
theories/XtDecimal.v
theories/XtDecimalSpec.v
theories/XtDecimalProofs.v
theories/XtDecimalParse.v
theories/XtDecimalProps.v
theories/XtAvt.v
theories/XtAvtSpec.v
theories/XtAvtProofs.v
theories/XtAvtProps.v
theories/XwModel.v
theories/XwSpec.v
theories/XwProofs.v
theories/XwTree.v
theories/XwProps.v
theories/XcModel.v
theories/XcSpec.v
theories/XcProps.v
theories/BdModel.v
theories/BdSpec.v
theories/BdProofs.v
theories/BdProps.v
theories/XlModel.v
theories/XlSpec.v
theories/XlProofs.v
theories/XlProps.v
theories/XnProps.v
theories/TwModel.v
theories/TwSpec.v
theories/TwProps.v
theories/ExModel.v
theories/ExSpec.v
theories/ExProps.v
theories/XtKey.v
theories/XtKeySpec.v
theories/XtKeyProps.v
theories/XuModel.v
theories/XuSpec.v
theories/XuProofs.v
theories/XuInsert.v
theories/XuEdit.v
theories/XuRename.v
theories/XuContent.v
theories/XuProps.v
theories/SwModel.v
theories/SwSpec.v
theories/SwWrite.v
theories/SwNs.v
theories/SwProofs.v
theories/SwAgain.v
theories/SwProps.v
theories/SwCoModel.v
theories/SwCoSpec.v
theories/SwCoProofs.v
theories/SwCoWrite.v
theories/SwCoProps.v
theories/UtModel.v
theories/UtSpec.v
theories/UtText.v
theories/UtProofs.v
theories/UtProps.v
theories/RdModel.v
theories/RdSpec.v
theories/RdProofs.v
theories/RdOrder.v
theories/RdProps.v
theories/TbModel.v
theories/TbSpec.v
theories/TbStore.v
theories/TbProofs.v
theories/TbTree.v
theories/TbHandler.v
theories/TbProps.v
theories/CpModel.v
theories/CpSpec.v
theories/CpCode.v
theories/CpGen.v
theories/CpPath.v
theories/CpVm.v
theories/CpAsm.v
theories/CpRun.v
theories/CpProps.v
theories/SrModel.v
theories/SrSpec.v
theories/SrMatch.v
theories/SrAttrs.v
theories/SrRead.v
theories/SrDoc.v
theories/SrCache.v
theories/SrErr.v
theories/SrProps.v
theories/HtModel.v
theories/HtSpec.v
theories/HtPrint.v
theories/HtRead.v
theories/HtTop.v
theories/HtProps.v
theories/OpModel.v
theories/OpSpec.v
theories/OpProofs.v
theories/OpHtml.v
theories/OpProps.v
theories/TcModel.v
theories/TcSpec.v
theories/TcProofs.v
theories/TcProps.v
theories/IsModel.v
theories/IsSpec.v
theories/IsCal.v
theories/IsProofs.v
theories/IsProps.v
theories/RsModel.v
theories/RsSpec.v
theories/RsProofs.v
theories/RsProps.v
theories/DwModel.v
theories/DwSpec.v
theories/DwProps.v
theories/SgModel.v
theories/SgSpec.v
theories/SgProps.v
theories/XrModel.v
theories/XrSpec.v
theories/XrProps.v
theories/NcModel.v
theories/NcSpec.v
theories/NcProps.v
theories/SaModel.v
theories/SaSpec.v
theories/SaProps.v
theories/XbModel.v
theories/XbSpec.v
theories/XbProps.v
theories/UfModel.v
theories/UfSpec.v
theories/UfProps.v
theories/DyModel.v
theories/DySpec.v
theories/DyProps.v
theories/RmModel.v
theories/RmSpec.v
theories/RmProps.v
theories/DtModel.v
theories/DtSpec.v
theories/DtProps.v
theories/DuModel.v
theories/DuSpec.v
theories/DuProps.v
theories/WyModel.v
theories/WySpec.v
theories/WyProps.v
theories/DuText.v
theories/DuTextProps.v
