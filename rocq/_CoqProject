-Q theories Verif
theories/Base.v
theories/Wire.v
theories/Dev.v
theories/Stream.v
theories/P_Base.v
theories/SpecWire.v
theories/P_Wire.v
theories/Prop_Wire.v
theories/P_Sched.v
theories/SpecFormat.v
theories/SpecStream.v
theories/P_Read.v
theories/P_Write.v
theories/P_Blob.v
theories/P_Stream.v
theories/Prop_Stream.v
theories/SpecBlob.v
theories/P_BlobOps.v
theories/Prop_Blob.v
theories/P_Field.v
theories/Prop_Field.v
theories/P_Skip.v
theories/Prop_Skip.v
theories/SpecHist.v
theories/P_Hist.v
theories/P_Pos.v
theories/Prop_Hist.v
theories/P_Canon.v
theories/SpecWrite.v
theories/P_WriteBlobs.v
theories/P_Copy.v
theories/P_Misc.v
theories/Prop_Write.v
theories/Types.v
theories/Ser.v
theories/Prog.v
theories/De.v
theories/SpecDe.v
theories/SpecListing.v
theories/SpecDbg.v
theories/SpecText.v
theories/P_Types.v
theories/P_Ord.v
theories/P_Prog.v
theories/P_Wp.v
theories/P_Dict.v
theories/P_DictAll.v
theories/P_DeStream.v
theories/P_DeSched.v
theories/SpecSerDe.v
theories/P_DeProps.v
theories/P_DeExt.v
theories/P_DeTrail.v
theories/P_El.v
theories/SpecDoc.v
theories/Tree.v
theories/P_Tree.v
theories/P_TreeRun.v
theories/P_RT.v
theories/P_Ser.v
theories/P_DocOk.v
theories/P_Unamb.v
theories/P_SerDe.v
theories/P_Ex.v
theories/P_Same.v
theories/Prop_Doc.v
theories/Prop_SerDe.v
theories/Prop_De.v
theories/SpecRead.v
theories/P_Sets.v
theories/P_Means.v
theories/P_Meaning.v
theories/P_Order.v
theories/P_Adds.v
theories/P_Unk.v
theories/Prop_Meaning.v
theories/P_Keep.v
theories/Prop_Keep.v
theories/SpecCard.v
theories/P_Card.v
theories/Prop_Card.v
theories/SpecCtx.v
theories/P_Ctx.v
theories/Prop_Ctx.v
theories/P_Parse.v
theories/P_Zc.v
theories/SpecZc.v
theories/P_Borrow.v
theories/Prop_Borrow.v
theories/SpecCompat.v
theories/P_Compat.v
theories/P_CompatTy.v
theories/P_Changes.v
theories/SpecChange.v
theories/P_CompatApi.v
theories/P_CompatEx.v
theories/Prop_Compat.v
theories/SpecEdit.v
theories/P_Edit.v
theories/P_Pass.v
theories/P_EditEx.v
theories/Prop_Edit.v
theories/Retrofit.v
theories/SpecStd.v
theories/P_Std.v
theories/Prop_Std.v
theories/SpecAccept.v
theories/P_Accept.v
theories/P_Exact.v
theories/Prop_Accept.v
theories/SpecCrash.v
theories/P_Crash.v
theories/P_ReadOnly.v
theories/P_Recover.v
theories/Prop_Crash.v
theories/P_Listing.v
theories/Prop_Sets.v
theories/P_Dbg.v
theories/Prop_Dbg.v
theories/P_Text.v
theories/Prop_Text.v
theories/SpecFault.v
theories/P_Fault.v
theories/P_Loc.v
theories/Prop_Fault.v
theories/P_Places.v
theories/Prop_Places.v
theories/P_Resave.v
theories/Prop_Resave.v
theories/P_Relax.v
theories/Prop_Relax.v
theories/P_Grace.v
theories/P_Quiet.v
theories/Prop_Grace.v
theories/SpecDisp.v
theories/P_Disp.v
theories/Prop_Disp.v
theories/P_CopySched.v
theories/Prop_Copy.v
theories/P_Amp.v
theories/Prop_Amp.v
theories/P_GraceOk.v
theories/P_GraceEq.v
theories/Prop_GraceEq.v
theories/SpecErr.v
theories/P_Errs.v
theories/Prop_Err.v
theories/SpecStrict.v
theories/P_Strict.v
theories/Prop_Strict.v
theories/Show.v
theories/SpecShow.v
theories/P_Show.v
theories/P_Names.v
theories/Prop_Show.v
theories/SpecRetry.v
theories/P_Retry.v
theories/Prop_Retry.v
theories/SpecErrW.v
theories/P_ErrW.v
theories/P_ErrD.v
theories/P_ErrV.v
theories/SpecErrC.v
theories/P_ErrC.v
theories/Prop_ErrW.v
theories/Elems.v
theories/SpecElems.v
theories/P_GiveUp.v
theories/P_Elems.v
theories/Prop_Elems.v
theories/Prop_GiveUp.v
theories/Hand.v
theories/SpecHand.v
theories/P_Hand.v
theories/Prop_Hand.v
theories/SpecGrow.v
theories/P_Grow.v
theories/P_GrowB.v
theories/P_GrowC.v
theories/Prop_Grow.v
theories/SpecAlike.v
theories/P_Alike.v
theories/P_AlikeW.v
theories/Prop_Alike.v
theories/SpecWork.v
theories/P_Work.v
theories/Prop_Work.v
