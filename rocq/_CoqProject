-Q theories Verif
theories/Base.v
theories/UBig_Model.v
theories/UBig_Spec.v
theories/UBig_Basics.v
theories/UBig_AddSub.v
theories/UBig_Mul.v
theories/UBig_Kara.v
theories/UBig_Div.v
theories/UBig_Shift.v
theories/UBig_Native.v
theories/UBig_Bits.v
theories/UBigDiv_Model.v
theories/UBigDiv_Proofs.v
theories/UBigDiv_Ops.v
theories/P_UBig.v
theories/P_UBigDiv.v
theories/Bits_Model.v
theories/Bits_Spec.v
theories/Bits_Proofs.v
theories/P_Bits.v
theories/Sort_Model.v
theories/Sort_Spec.v
theories/Sort_Proofs.v
theories/P_Sort.v
theories/Math_Model.v
theories/Math_Spec.v
theories/Math_Prime.v
theories/Math_Fact.v
theories/Math_Misc.v
theories/Math_Gcd.v
theories/P_Math.v
theories/Bitset_Model.v
theories/Bitset_Proofs.v
theories/P_Bitset.v
theories/Rand_Model.v
theories/Rand_Proofs.v
theories/P_Rand.v
theories/Utf_Model.v
theories/Utf_Spec.v
theories/Utf_Proofs.v
theories/P_Utf.v
theories/Range_Model.v
theories/Range_Spec.v
theories/Range_Proofs.v
theories/P_Range.v
theories/BigInt_Model.v
theories/BigInt_Proofs.v
theories/BigIntNat_Model.v
theories/BigIntNat_Proofs.v
theories/P_BigInt.v
theories/Frac_Model.v
theories/Frac_Spec.v
theories/Frac_Proofs.v
theories/P_Frac.v
theories/NumRepr_Model.v
theories/NumRepr_Spec.v
theories/NumRepr_Proofs.v
theories/NumRepr_Big.v
theories/NumRepr_Frac.v
theories/P_NumRepr.v
theories/NumLong_Model.v
theories/NumLong_Proofs.v
theories/P_NumLong.v
theories/Table_Model.v
theories/Table_Spec.v
theories/Table_Proofs.v
theories/Table_Hash.v
theories/Table_Map.v
theories/P_Table.v
theories/Arr_Model.v
theories/Arr_Spec.v
theories/Arr_Proofs.v
theories/P_Arr.v
theories/Ref_Model.v
theories/Ref_Spec.v
theories/Ref_Proofs.v
theories/P_Ref.v
theories/Cow_Model.v
theories/Cow_Spec.v
theories/Cow_Proofs.v
theories/P_Cow.v
theories/List_Model.v
theories/List_Spec.v
theories/List_Proofs.v
theories/P_List.v
theories/Pool_Model.v
theories/Pool_Spec.v
theories/Pool_Proofs.v
theories/P_Pool.v
theories/Gc_Model.v
theories/Gc_Spec.v
theories/Gc_Proofs.v
theories/P_Gc.v
theories/Str_Model.v
theories/Str_Heap.v
theories/Str_Own.v
theories/Str_Read.v
theories/Str_Apply.v
theories/Str_Ctx.v
theories/Str_Edit.v
theories/Str_Cut.v
theories/Str_Uniq.v
theories/Str_Cmp_Model.v
theories/Str_Api_Model.v
theories/Str_Obs.v
theories/Str_Cmp.v
theories/Str_Merge.v
theories/Str_Spec.v
theories/Str_Guard.v
theories/Str_Api_Inv.v
theories/Str_Api_Proofs.v
theories/Str_Class.v
theories/Str_View.v
theories/Str_Cases.v
theories/Str_Final.v
theories/P_Str.v
theories/Cmp_Model.v
theories/Cmp_Spec.v
theories/Cmp_Proofs.v
theories/P_Cmp.v
theories/Repl_Model.v
theories/Repl_Spec.v
theories/Repl_Proofs.v
theories/P_Repl.v
theories/Find_Model.v
theories/Find_Spec.v
theories/Find_Proofs.v
theories/P_Find.v
theories/Float_Spec.v
theories/Float_Model.v
theories/Float_Proofs.v
theories/P_Float.v
theories/FloatBig_Spec.v
theories/FloatBig_Model.v
theories/FloatBig_Proofs.v
theories/FloatOut_Proofs.v
theories/P_FloatBig.v
theories/Lit_Spec.v
theories/Lit_Model.v
theories/Lit_Proofs.v
theories/P_Lit.v
theories/Carry_Model.v
theories/Carry_Proofs.v
theories/P_Carry.v
theories/FracText_Model.v
theories/FracText_Spec.v
theories/FracText_Proofs.v
theories/P_FracText.v
theories/FloatText_Model.v
theories/FloatText_Spec.v
theories/FloatText_Proofs.v
theories/FloatRead_Proofs.v
theories/FloatShow_Proofs.v
theories/FloatDouble_Proofs.v
theories/P_FloatText.v
theories/NanText_Model.v
theories/NanText_Spec.v
theories/NanText_Proofs.v
theories/P_NanText.v
theories/Node_Model.v
theories/Node_Spec.v
theories/Node_Proofs.v
theories/P_Node.v
theories/Val_Model.v
theories/Val_Spec.v
theories/Val_Proofs.v
theories/P_Val.v
theories/Life_Model.v
theories/Life_Spec.v
theories/Life_Proofs.v
theories/Fill_Proofs.v
theories/P_Life.v
theories/Stream_Model.v
theories/Stream_Spec.v
theories/Stream_Proofs.v
theories/Stream2_Spec.v
theories/Line_Proofs.v
theories/Cvt_Proofs.v
theories/Echo_Proofs.v
theories/P_Stream.v
theories/P_Stream2.v
theories/Fun_Model.v
theories/Fun_Spec.v
theories/Fun_Proofs.v
theories/P_Fun.v
theories/Char_Data.v
theories/Char_Unicode.v
theories/Char_Spec.v
theories/Char_Model.v
theories/Char_Proofs.v
theories/P_Char.v
theories/Lehmer_Model.v
theories/Lehmer_Proofs.v
theories/P_Lehmer.v
theories/MinMax_Model.v
theories/MinMax_Spec.v
theories/MinMax_Proofs.v
theories/P_MinMax.v
theories/View_Model.v
theories/View_Proofs.v
theories/P_View.v
theories/Alloc_Model.v
theories/Alloc_Spec.v
theories/Alloc_Proofs.v
theories/P_Alloc.v
theories/Mb_Model.v
theories/Mb_Spec.v
theories/Mb_Proofs.v
theories/P_Mb.v
theories/Approx_Model.v
theories/Approx_Spec.v
theories/Approx_Proofs.v
theories/P_Approx.v
theories/Cast_Model.v
theories/Cast_Spec.v
theories/Cast_Proofs.v
theories/P_Cast.v
theories/NatDiv_Model.v
theories/NatDiv_Proofs.v
theories/P_NatDiv.v
theories/Pow_Model.v
theories/Pow_Spec.v
theories/Pow_Proofs.v
theories/P_Pow.v
theories/RandF_Model.v
theories/RandF_Spec.v
theories/RandF_Proofs.v
theories/P_RandF.v
theories/BigRand_Model.v
theories/BigRand_Spec.v
theories/BigRand_Proofs.v
theories/P_BigRand.v
theories/Seed_Model.v
theories/Seed_Spec.v
theories/Seed_Proofs.v
theories/P_Seed.v
theories/CStr_Model.v
theories/CStr_Proofs.v
theories/P_CStr.v
theories/Iter_Model.v
theories/Iter_Proofs.v
theories/P_Iter.v
theories/FIdx_Model.v
theories/FIdx_Spec.v
theories/FIdx_Proofs.v
theories/P_FIdx.v
theories/Timer_Model.v
theories/Timer_Spec.v
theories/Timer_Proofs.v
theories/P_Timer.v
theories/Ctl_Model.v
theories/Ctl_Spec.v
theories/Ctl_Proofs.v
theories/P_Ctl.v
theories/Word_Model.v
theories/Word_Spec.v
theories/Word_Proofs.v
theories/P_Word.v
theories/Scope_Model.v
theories/Scope_Spec.v
theories/Scope_Proofs.v
theories/P_Scope.v
theories/Lib_Model.v
theories/Lib_Spec.v
theories/Lib_Proofs.v
theories/P_Lib.v
theories/Stk_Model.v
theories/Stk_Spec.v
theories/Stk_Proofs.v
theories/P_Stk.v
theories/Pkg_Model.v
theories/Pkg_Spec.v
theories/Pkg_Proofs.v
theories/P_Pkg.v
theories/Name_Model.v
theories/Name_Spec.v
theories/Name_Proofs.v
theories/P_Name.v
theories/Num_Model.v
theories/Num_Spec.v
theories/Num_Proofs.v
theories/P_Num.v
theories/Psl_Model.v
theories/Psl_Spec.v
theories/Psl_Proofs.v
theories/P_Psl.v
theories/Times_Model.v
theories/Times_Spec.v
theories/Times_Proofs.v
theories/P_Times.v
theories/Die_Model.v
theories/Die_Spec.v
theories/Die_Proofs.v
theories/P_Die.v
theories/ArrOut_Model.v
theories/ArrOut_Spec.v
theories/ArrOut_Proofs.v
theories/P_ArrOut.v
theories/Lbool_Model.v
theories/Lbool_Spec.v
theories/Lbool_Proofs.v
theories/P_Lbool.v
theories/SrcLoc_Model.v
theories/SrcLoc_Spec.v
theories/SrcLoc_Proofs.v
theories/P_SrcLoc.v
theories/PtrOut_Model.v
theories/PtrOut_Spec.v
theories/PtrOut_Proofs.v
theories/P_PtrOut.v
theories/Swap_Model.v
theories/Swap_Spec.v
theories/Swap_Proofs.v
theories/P_Swap.v
