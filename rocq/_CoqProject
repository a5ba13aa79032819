-Q theories Verif
theories/M_Typenum.v
theories/S_Typenum.v
theories/L_Typenum.v
theories/P_Typenum.v
theories/M_Layout.v
theories/M_Result.v
theories/S_Layout.v
theories/L_Layout.v
theories/L_Result.v
theories/L_Good.v
theories/L_Types.v
theories/L_LayoutApi.v
theories/L_LayoutFull.v
theories/S_Values.v
theories/L_Struct.v
theories/M_Enum.v
theories/L_Enum.v
theories/S_Repr.v
theories/L_Repr.v
theories/M_Core.v
theories/S_Core.v
theories/L_LayoutThms.v
theories/L_Core.v
theories/P_Layout.v
theories/P_Result.v
theories/P_Repr.v
theories/M_Num.v
theories/S_Num.v
theories/L_Num.v
theories/P_Num.v
theories/M_Time.v
theories/S_Time.v
theories/L_Time.v
theories/P_Time.v
theories/M_Report.v
theories/S_Report.v
theories/L_Report.v
theories/P_Report.v
theories/M_Import.v
theories/S_Import.v
theories/L_Import.v
theories/P_Import.v
theories/M_Canary.v
theories/S_Canary.v
theories/L_Canary.v
theories/P_Canary.v
theories/M_Decl.v
theories/S_Decl.v
theories/L_Decl.v
theories/P_Decl.v
theories/M_Alloc.v
theories/S_Alloc.v
theories/L_Alloc.v
theories/P_Alloc.v
theories/M_Vec.v
theories/S_Vec.v
theories/L_Vec.v
theories/P_Vec.v
theories/M_Sov.v
theories/S_Sov.v
theories/L_Sov.v
theories/P_Sov.v
theories/M_Arc.v
theories/S_Arc.v
theories/L_Arc.v
theories/P_Arc.v
theories/L_ArcConc.v
theories/M_ArcOrder.v
theories/S_ArcOrder.v
theories/L_ArcOrder.v
theories/P_ArcOrder.v
theories/M_ArcSlice.v
theories/S_ArcSlice.v
theories/L_ArcSlice.v
theories/P_ArcSlice.v
theories/M_AtomicArc.v
theories/S_AtomicArc.v
theories/L_AtomicArc.v
theories/P_AtomicArc.v
theories/M_BTree.v
theories/S_BTree.v
theories/L_BTree.v
theories/P_BTree.v
theories/L_BTreeIns.v
theories/L_BTreeSet.v
theories/L_BTreeTop.v
theories/M_ATree.v
theories/S_ATree.v
theories/L_ATree.v
theories/P_ATree.v
theories/L_ATreeReg.v
theories/M_VtVec.v
theories/S_VtVec.v
theories/L_VtVec.v
theories/P_VtVec.v
theories/M_Dyn.v
theories/S_Dyn.v
theories/L_Dyn.v
theories/P_Dyn.v
theories/M_Auto.v
theories/S_Auto.v
theories/P_Auto.v
theories/M_Variance.v
theories/P_Variance.v
theories/M_Maybe.v
theories/S_Maybe.v
theories/L_Maybe.v
theories/P_Maybe.v
theories/M_Waker.v
theories/S_Waker.v
theories/L_Waker.v
theories/P_Waker.v
theories/M_Adapter.v
theories/S_Adapter.v
theories/L_Adapter.v
theories/P_Adapter.v
theories/M_Guard.v
theories/S_Guard.v
theories/L_Guard.v
theories/P_Guard.v
theories/M_String.v
theories/S_String.v
theories/L_String.v
theories/P_String.v
theories/M_Cell.v
theories/S_Cell.v
theories/L_Cell.v
theories/P_Cell.v
theories/M_Box.v
theories/S_Box.v
theories/L_Box.v
theories/P_Box.v
theories/M_ResApi.v
theories/S_ResApi.v
theories/L_ResApi.v
theories/P_ResApi.v
theories/M_View.v
theories/S_View.v
theories/L_View.v
theories/P_View.v
theories/M_DynLife.v
theories/S_DynLife.v
theories/L_DynLife.v
theories/P_DynLife.v
theories/M_Trait.v
theories/S_Trait.v
theories/L_Trait.v
theories/P_Trait.v
theories/M_FnReport.v
theories/S_FnReport.v
theories/L_FnReport.v
theories/P_FnReport.v
theories/M_Serde.v
theories/S_Serde.v
theories/L_Serde.v
theories/P_Serde.v
theories/M_Unwind.v
theories/S_Unwind.v
theories/L_Unwind.v
theories/P_Unwind.v
theories/M_TyEval.v
theories/S_TyEval.v
theories/L_TyEval.v
theories/P_TyEval.v
theories/M_Instant.v
theories/S_Instant.v
theories/L_Instant.v
theories/P_Instant.v
theories/M_Float.v
theories/S_Float.v
theories/L_Float.v
theories/P_Float.v
theories/S_Scope.v
theories/L_Scope.v
theories/P_Scope.v
theories/M_Zst.v
theories/S_Zst.v
theories/L_Zst.v
theories/P_Zst.v
theories/M_BTreeFail.v
theories/S_BTreeFail.v
theories/L_BTreeFail.v
theories/L_BTreeFailProg.v
theories/P_BTreeFail.v
theories/M_SelfRep.v
theories/S_SelfRep.v
theories/L_SelfRep.v
theories/L_SelfSep.v
theories/L_SelfMore.v
theories/P_SelfRep.v
theories/M_Attr.v
theories/S_Attr.v
theories/L_Attr.v
theories/P_Attr.v
theories/M_Erase.v
theories/S_Erase.v
theories/L_Erase.v
theories/P_Erase.v
theories/M_Size.v
theories/L_Size.v
theories/P_Size.v
theories/M_Cmp.v
theories/S_Cmp.v
theories/L_Cmp.v
theories/P_Cmp.v
theories/M_CType.v
theories/S_CType.v
theories/L_CType.v
theories/P_CType.v
theories/M_VecMem.v
theories/S_VecMem.v
theories/L_VecMem.v
theories/P_VecMem.v
theories/M_Call.v
theories/S_Call.v
theories/L_Call.v
theories/P_Call.v
theories/M_ShMem.v
theories/S_ShMem.v
theories/L_ShMem.v
theories/P_ShMem.v
theories/M_Generics.v
theories/S_Generics.v
theories/L_Generics.v
theories/P_Generics.v
theories/M_FnItem.v
theories/S_FnItem.v
theories/L_FnItem.v
theories/P_FnItem.v
theories/M_DynPtr.v
theories/S_DynPtr.v
theories/L_DynPtr.v
theories/P_DynPtr.v
theories/M_ExtBlock.v
theories/S_ExtBlock.v
theories/L_ExtBlock.v
theories/P_ExtBlock.v
theories/M_TraitTy.v
theories/S_TraitTy.v
theories/L_TraitTy.v
theories/P_TraitTy.v
theories/M_GenTrait.v
theories/S_GenTrait.v
theories/L_GenTrait.v
theories/P_GenTrait.v
theories/M_TyArgs.v
theories/S_TyArgs.v
theories/L_TyArgs.v
theories/P_TyArgs.v
theories/M_EnumNames.v
theories/S_EnumNames.v
theories/L_EnumNames.v
theories/P_EnumNames.v
theories/M_Closure.v
theories/S_Closure.v
theories/L_Closure.v
theories/P_Closure.v
theories/M_BuildRs.v
theories/S_BuildRs.v
theories/L_BuildRs.v
theories/P_BuildRs.v
theories/M_Pod.v
theories/S_Pod.v
theories/L_Pod.v
theories/P_Pod.v
theories/M_Fmt.v
theories/S_Fmt.v
theories/L_Fmt.v
theories/P_Fmt.v
theories/M_Check.v
theories/S_Check.v
theories/L_Check.v
theories/P_Check.v
theories/M_Glue.v
theories/S_Glue.v
theories/L_Glue.v
theories/P_Glue.v
theories/M_NumRep.v
theories/S_NumRep.v
theories/L_NumRep.v
theories/P_NumRep.v
theories/M_Like.v
theories/S_Like.v
theories/L_Like.v
theories/P_Like.v
theories/M_Pad.v
theories/S_Pad.v
theories/L_Pad.v
theories/P_Pad.v
theories/M_RepList.v
theories/S_RepList.v
theories/L_RepList.v
theories/P_RepList.v
theories/M_VtCfg.v
theories/S_VtCfg.v
theories/L_VtCfg.v
theories/P_VtCfg.v
theories/M_Load.v
theories/S_Load.v
theories/L_Load.v
theories/P_Load.v
theories/M_NumOps.v
theories/S_NumOps.v
theories/L_NumOps.v
theories/P_NumOps.v
theories/M_NumTable.v
theories/S_NumTable.v
theories/L_NumTable.v
theories/P_NumTable.v
