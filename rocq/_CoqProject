-Q theories Verif
theories/Base.v
theories/Values.v
theories/Prog.v
theories/FloatText.v
theories/Data.v
theories/SymTab.v
theories/ArgSpec.v
theories/Apply.v
theories/PrimSpecial.v
theories/PrimList.v
theories/PrimMath.v
theories/PrimFrame.v
theories/Reader.v
theories/PrimString.v
theories/PrimConc.v
theories/Json.v
theories/Interp.v
theories/Pool.v
theories/BaseFacts.v
theories/Safety.v
theories/Policy.v
theories/SafeWalk.v
theories/SpecAccess.v
theories/ProofWf.v
theories/ProofAccess.v
theories/PropAccess.v
theories/SpecCall.v
theories/RunFacts.v
theories/NumText.v
theories/ProofFloat.v
theories/SpecMath.v
theories/ProofMath.v
theories/PropMath.v
theories/SpecList.v
theories/ProofList.v
theories/PropList.v
theories/SpecTree.v
theories/ProofTree.v
theories/SpecSet.v
theories/ProofSet.v
theories/PropTree.v
theories/SpecEval.v
theories/StrFacts.v
theories/ProofArgs.v
theories/ProofEval.v
theories/ProofCall.v
theories/ProofEnv.v
theories/ProofForm.v
theories/ProofApply.v
theories/PropEval.v
theories/SpecHigher.v
theories/ProofHigher.v
theories/ProofSort.v
theories/PropHigher.v
theories/SpecReach.v
theories/ProofReach.v
theories/PropReach.v
theories/SpecFrame.v
theories/ProofFrame.v
theories/PropFrame.v
theories/SpecConc.v
theories/ProofConc.v
theories/ProofProc.v
theories/ProofChan.v
theories/ProofPerform.v
theories/ProofSchedule.v
theories/PropConc.v
theories/SpecData.v
theories/ProofData.v
theories/ProofBytes.v
theories/ProofAlist.v
theories/ProofPairs.v
theories/PropData.v
theories/Locks.v
theories/SpecLock.v
theories/ProofLock.v
theories/PropLock.v
theories/SpecRead.v
theories/ProofRead.v
theories/ProofPrint.v
theories/PropRead.v
theories/SpecFormat.v
theories/ProofFormat.v
theories/PropFormat.v
theories/SpecJson.v
theories/ProofJson.v
theories/PropJson.v
theories/SpecQuasi.v
theories/ProofQuasi.v
theories/ProofFill.v
theories/PropQuasi.v
theories/SpecCrash.v
theories/ProofCrash.v
theories/PropCrash.v
theories/SpecNum.v
theories/ProofNum.v
theories/PropNum.v
theories/SpecTrim.v
theories/ProofTrim.v
theories/PropTrim.v
theories/SpecThread.v
theories/ProofThread.v
theories/PropThread.v
theories/SpecReflect.v
theories/ProofReflect.v
theories/PropReflect.v
theories/SpecOut.v
theories/ProofOut.v
theories/PropOut.v
theories/SpecMore.v
theories/ProofMore.v
theories/PropMore.v
theories/SpecText.v
theories/ProofText.v
theories/PropText.v
theories/SpecJsonText.v
theories/ProofJsonNum.v
theories/ProofJsonText.v
theories/PropJsonText.v
theories/SpecEqual.v
theories/ProofEqual.v
theories/PropEqual.v
theories/SpecArith.v
theories/ProofArith.v
theories/PropArith.v
theories/SpecCore.v
theories/ProofCore.v
theories/ProofCoreRun.v
theories/PropCore.v
theories/SpecSuper.v
theories/ProofSuper.v
theories/PropSuper.v
theories/SpecUnicode.v
theories/ProofUnicode.v
theories/PropUnicode.v
theories/SpecPort.v
theories/ProofPort.v
theories/PropPort.v
theories/SpecState.v
theories/ProofState.v
theories/PropState.v
theories/SpecFail.v
theories/ProofFail.v
theories/ProofFailRun.v
theories/PropFail.v
theories/SpecSession.v
theories/ProofSession.v
theories/PropSession.v
theories/SpecObject.v
theories/ProofObject.v
theories/PropObject.v
theories/SpecRescue.v
theories/ProofRescue.v
theories/PropRescue.v
theories/SpecRedefine.v
theories/ProofRedefine.v
theories/PropRedefine.v
theories/SpecMacro.v
theories/ProofMacro.v
theories/PropMacro.v
theories/ProofNot.v
theories/PropNot.v
theories/SpecPower.v
theories/ProofPower.v
theories/PropPower.v
theories/SpecOwn.v
theories/ProofOwn.v
theories/PropOwn.v
theories/SpecRewrite.v
theories/ProofRewrite.v
theories/PropRewrite.v
