-Q theories Verif
theories/PyBase.v
theories/PySet.v
theories/PyDict.v
theories/PyGen.v
theories/PyStr.v
theories/MCoord.v
theories/MSudoku.v
theories/MDlx.v
theories/MSolve.v
theories/MAnalyze.v
theories/MGenerate.v
theories/MSolvers.v
theories/MRate.v
theories/MCodec.v
theories/MNotation.v
theories/MHeap.v
theories/MShell.v
theories/MGame.v
theories/Spec.v
theories/LAxis.v
theories/LBase.v
theories/LBrute.v
theories/LCheck.v
theories/LClues.v
theories/LCodec.v
theories/LCodec2.v
theories/LCodec3.v
theories/LCodec4.v
theories/LCoord.v
theories/LCover.v
theories/LCover2.v
theories/LCreate.v
theories/LDecode.v
theories/LDecode2.v
theories/LDecode3.v
theories/LDecode4.v
theories/LDict.v
theories/LDlx.v
theories/LDlx2.v
theories/LDlx3.v
theories/LDual.v
theories/LDual2.v
theories/LEmpty.v
theories/LEq.v
theories/LEquiv.v
theories/LFind.v
theories/LFind2.v
theories/LFind3.v
theories/LFind4.v
theories/LFind5.v
theories/LFind6.v
theories/LForced.v
theories/LGame.v
theories/LGame2.v
theories/LGame3.v
theories/LGame4.v
theories/LGame5.v
theories/LGame6.v
theories/LGame7.v
theories/LGen.v
theories/LGenerate.v
theories/LGenerate2.v
theories/LGreedy.v
theories/LHeap.v
theories/LHeapSolve.v
theories/LHelp.v
theories/LHints.v
theories/LHints2.v
theories/LInit.v
theories/LInterrupt.v
theories/LLevel.v
theories/LLevel2.v
theories/LLevel3.v
theories/LLevel4.v
theories/LLevel5.v
theories/LLoop.v
theories/LMain.v
theories/LMinimal.v
theories/LMonoGen.v
theories/LNegative.v
theories/LNotation.v
theories/LNotation2.v
theories/LNotation3.v
theories/LNotation4.v
theories/LNotation5.v
theories/LNotation6.v
theories/LNotation7.v
theories/LNotationNum.v
theories/LNumber.v
theories/LObjText.v
theories/LObjects.v
theories/LObjects2.v
theories/LOnly.v
theories/LOrder.v
theories/LParse.v
theories/LParse2.v
theories/LRead.v
theories/LRead2.v
theories/LRecursion.v
theories/LRecursion2.v
theories/LReport.v
theories/LReport2.v
theories/LScore.v
theories/LScript.v
theories/LSearches.v
theories/LSet.v
theories/LSettings.v
theories/LShell.v
theories/LShell2.v
theories/LShell3.v
theories/LShell4.v
theories/LShell5.v
theories/LShell6.v
theories/LShellFull.v
theories/LShellLib.v
theories/LShellO.v
theories/LSizes.v
theories/LSmall.v
theories/LSmallData.v
theories/LSolve.v
theories/LSolvers.v
theories/LSolvers2.v
theories/LSolvers3.v
theories/LSolvers4.v
theories/LSolvers5.v
theories/LSolvers6.v
theories/LSplit.v
theories/LStepText.v
theories/LStepText2.v
theories/LSteps.v
theories/LStr.v
theories/LSudoku.v
theories/LSudoku2.v
theories/LUnique.v
theories/LView.v
theories/LView2.v
theories/LWorlds.v
theories/LWrap.v
theories/MHeapSolve.v
theories/MHelp.v
theories/MInit.v
theories/MInterrupt.v
theories/MMain.v
theories/MNotationNum.v
theories/MObjText.v
theories/MObjects.v
theories/MRecursion.v
theories/MReport.v
theories/MSearches.v
theories/MShellFull.v
theories/MShellLib.v
theories/MShellO.v
theories/MStepText.v
theories/PAlike.v
theories/PAxis.v
theories/PBrute.v
theories/PCands.v
theories/PClues.v
theories/PCodec.v
theories/PCoord.v
theories/PCover.v
theories/PDecode.v
theories/PDlx.v
theories/PDual.v
theories/PEmpty.v
theories/PEq.v
theories/PEquiv.v
theories/PFind.v
theories/PForced.v
theories/PGame.v
theories/PGenerate.v
theories/PGenerate2.v
theories/PGreedy.v
theories/PHeap.v
theories/PHeapSolve.v
theories/PHelp.v
theories/PHints.v
theories/PInit.v
theories/PInterrupt.v
theories/PLevel.v
theories/PLoop.v
theories/PMain.v
theories/PMinimal.v
theories/PMonoGen.v
theories/PNegative.v
theories/PNotation.v
theories/PNotationNum.v
theories/PNumber.v
theories/PObjText.v
theories/PObjects.v
theories/POrder.v
theories/PParse.v
theories/PRate.v
theories/PRead.v
theories/PRecursion.v
theories/PRepair.v
theories/PReport.v
theories/PScore.v
theories/PScript.v
theories/PSearches.v
theories/PSettings.v
theories/PShell.v
theories/PShellO.v
theories/PSizes.v
theories/PSmall.v
theories/PSolvers.v
theories/PSolvers2.v
theories/PSplit.v
theories/PStepOrder.v
theories/PStepText.v
theories/PSteps.v
theories/PSudoku.v
theories/PUnique.v
theories/PView.v
theories/PWrap.v
theories/SpecAlike.v
theories/SpecAxis.v
theories/SpecClues.v
theories/SpecCodec.v
theories/SpecCover.v
theories/SpecDecode.v
theories/SpecDlx.v
theories/SpecDual.v
theories/SpecEq.v
theories/SpecEquiv.v
theories/SpecFind.v
theories/SpecGame.v
theories/SpecGen.v
theories/SpecHelp.v
theories/SpecHints.v
theories/SpecInit.v
theories/SpecInterrupt.v
theories/SpecLatin.v
theories/SpecLevel.v
theories/SpecLoop.v
theories/SpecMinimal.v
theories/SpecNotation.v
theories/SpecNotationNum.v
theories/SpecObjText.v
theories/SpecObjects.v
theories/SpecOrder.v
theories/SpecParse.v
theories/SpecRead.v
theories/SpecRecursion.v
theories/SpecReport.v
theories/SpecScore.v
theories/SpecScript.v
theories/SpecSearches.v
theories/SpecSettings.v
theories/SpecShell.v
theories/SpecShellO.v
theories/SpecSizes.v
theories/SpecSolvers.v
theories/SpecStepOrder.v
theories/SpecSteps.v
theories/SpecText.v
theories/SpecView.v
theories/SpecWrap.v
theories/TNotation.v
theories/TReadme.v
theories/TShell.v
theories/TSolve.v
theories/TSolvers.v
theories/TSudoku.v
