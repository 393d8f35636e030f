-Q theories Verif
theories/Base.v
theories/WordOps.v
theories/IterModel.v
theories/RefModel.v
theories/PopcntModel.v
theories/AlgModel.v
theories/Spec.v
theories/ProofBase.v
theories/ProofIter.v
theories/ProofWord.v
theories/ProofAlg1.v
theories/ProofCnt.v
theories/ProofCopy.v
theories/ProofCopyBackward.v
theories/ProofAlg2.v
theories/ProofPopcnt.v
theories/ProofPopcnt2.v
theories/ProofPopcnt3.v
theories/ProofNeon.v
theories/ProofCount.v
theories/Demo.v
theories/ProofRef.v
theories/ProofRange.v
theories/TransformModel.v
theories/ShiftModel.v
theories/HwyModel.v
theories/HwyAlgModel.v
theories/HwyVecModel.v
theories/HwyProgModel.v
theories/SpecHwyProg.v
theories/SwapModel.v
theories/ReverseModel.v
theories/RotateModel.v
theories/RotateCopyModel.v
theories/ProofTransform.v
theories/ProofShift.v
theories/ProofSwap.v
theories/ProofBitswap.v
theories/ProofReverse.v
theories/SpecRotate.v
theories/ProofSwapOver.v
theories/ProofRotate.v
theories/ProofRotateAll.v
theories/ProofWide.v
theories/SpecMask.v
theories/ProofMask.v
theories/SpecRef.v
theories/ProofReference.v
theories/ProofAccess.v
theories/ProofPointer.v
theories/ProofWordOps.v
theories/ProofWordOps2.v
theories/ProofDetails.v
theories/ProofPopcntTop.v
theories/ProofUndefined.v
theories/ProofRefine.v
theories/ProofOracle.v
theories/ProofCompose.v
theories/VecModel.v
theories/SpecVec.v
theories/ProofVec.v
theories/ProofVec2.v
theories/ProofVec3.v
theories/ProofVec4.v
theories/TypeModel.v
theories/SpecType.v
theories/ProofType.v
theories/MixedModel.v
theories/ProofMixed.v
theories/Properties_Iter.v
theories/Properties_Range.v
theories/Properties_Transform.v
theories/Properties_Shift.v
theories/Properties_Swap.v
theories/Properties_Reverse.v
theories/Properties_Rotate.v
theories/Properties_Wide.v
theories/Properties_Ref.v
theories/Properties_Access.v
theories/Properties_Word.v
theories/Properties_Details.v
theories/Properties_Popcnt.v
theories/Properties_Undefined.v
theories/Properties_Compose.v
theories/Properties_Vec.v
theories/Properties_Type.v
theories/Properties_Mixed.v
theories/SpecRoom.v
theories/ProofFrame.v
theories/ProofRoom.v
theories/Properties_Room.v
theories/ProofVec5.v
theories/SpecGrow.v
theories/ProofGrow.v
theories/Properties_History.v
theories/SpecHwy.v
theories/ProofHwy.v
theories/ProofWith.v
theories/ProofHwyAlg.v
theories/Properties_Hwy.v
theories/ProofHwyAlgLang.v
theories/Properties_HwyAlg.v
theories/Properties_HwyAlgLang.v
theories/SpecPoint.v
theories/ProofHwyRight.v
theories/ProofHwyVec.v
theories/Properties_HwyRight.v
theories/Properties_HwyVec.v
theories/ProofHwyProg.v
theories/ProofHwyProgLang.v
theories/Properties_HwyProg.v
theories/ClientModel.v
theories/SpecClient.v
theories/ProofClient.v
theories/ProofClient2.v
theories/ProofClient3.v
theories/ProofClient4.v
theories/Properties_Client.v
theories/ProofVacated.v
theories/Properties_Vacated.v
theories/ProofRotateCopy.v
theories/Properties_RotateCopy.v
theories/StdModel.v
theories/SpecStd.v
theories/ProofStd.v
theories/ProofStdShift.v
theories/Properties_Std.v
theories/CapModel.v
theories/SpecCap.v
theories/ProofCap.v
theories/Properties_Cap.v
theories/ThreadModel.v
theories/SpecThread.v
theories/ProofSteps.v
theories/ProofThread.v
theories/Properties_Thread.v
theories/GenericModel.v
theories/SpecGeneric.v
theories/ProofGeneric.v
theories/Properties_Generic.v
theories/FailModel.v
theories/SpecFail.v
theories/ProofFail.v
theories/Properties_Fail.v
theories/DataModel.v
theories/ProofData.v
theories/Properties_Data.v
theories/ValueModel.v
theories/SpecValue.v
theories/ProofValue.v
theories/Properties_Value.v
theories/PtrModel.v
theories/SpecPtr.v
theories/ProofPtr.v
theories/ProofPtrFront.v
theories/ProofPtrBack.v
theories/ProofPtrSwap.v
theories/ProofPtrShift.v
theories/ProofPtrRotate.v
theories/ProofPtrAll.v
theories/Properties_Ptr.v
theories/SeqModel.v
theories/SpecSeq.v
theories/ProofSeq.v
theories/Properties_Seq.v
theories/OverloadModel.v
theories/SpecOverload.v
theories/ProofOverload.v
theories/Properties_Overload.v
theories/CpuModel.v
theories/SpecCpu.v
theories/ProofCpu.v
theories/Properties_Cpu.v
theories/TraceModel.v
theories/CountTraceModel.v
theories/SpecReads.v
theories/SpecCost.v
theories/ProofTrace.v
theories/ProofCost.v
theories/ProofCost2.v
theories/ProofCost3.v
theories/ProofCost4.v
theories/ProofCost5.v
theories/ProofCost6.v
theories/ProofCost7.v
theories/ProofCountTrace.v
theories/ProofCountPar.v
theories/Properties_CountReads.v
theories/ProofWrites.v
theories/ProofFindReads.v
theories/Properties_Writes.v
theories/ProofOldNew.v
theories/ProofOutside.v
theories/ProofSwapOutside.v
theories/ProofRotateOutside.v
theories/Properties_OldNew.v
theories/Properties_Cost.v
theories/ProgModel.v
theories/SpecProg.v
theories/ProofProg.v
theories/Properties_Prog.v
theories/CtorModel.v
theories/SpecCtor.v
theories/ProofCtor.v
theories/Properties_Ctor.v
theories/HwyClientModel.v
theories/SpecHwyClient.v
theories/ProofHwyClient.v
theories/Properties_HwyClient.v
