-Q theories Verif
theories/Lib.v
theories/M_Linemap.v
theories/P_Linemap.v
theories/T_Linemap.v
theories/M_Errwarn.v
theories/P_Errwarn.v
theories/T_Errwarn.v
theories/LibBits.v
theories/M_Hamt.v
theories/P_HamtBits.v
theories/P_Hamt.v
theories/P_HamtDiverge.v
theories/T_Hamt.v
theories/M_Symrec.v
theories/P_Symrec.v
theories/T_Symrec.v
theories/M_Mergesort.v
theories/P_Mergesort.v
theories/T_Mergesort.v
theories/M_Assocdat.v
theories/P_Assocdat.v
theories/T_Assocdat.v
theories/M_File.v
theories/P_File.v
theories/T_File.v
theories/M_BitVect.v
theories/P_BitVect.v
theories/P_BitVectIO.v
theories/T_BitVect.v
theories/M_BitVectIv.v
theories/P_BitVectIv.v
theories/M_Intnum.v
theories/P_Intnum.v
theories/P_IntnumIO.v
theories/T_Intnum.v
theories/M_Expr.v
theories/P_Expr.v
theories/P_ExprLevel.v
theories/P_ExprTree.v
theories/P_ExprTree2.v
theories/P_ExprTop.v
theories/P_ExprUse.v
theories/T_Expr.v
theories/M_Inttree.v
theories/P_Inttree.v
theories/T_Inttree.v
theories/M_Bytecode.v
theories/P_Bytecode.v
theories/T_Bytecode.v
theories/M_Data.v
theories/P_Data.v
theories/T_Data.v
theories/M_Optimize.v
theories/P_Optimize.v
theories/P_OptimizeRun.v
theories/P_OptimizeLoop.v
theories/P_OptimizeEnd.v
theories/P_OptimizeMain.v
theories/P_OptimizeLeast.v
theories/P_OptimizeCheck.v
theories/P_OptimizeBad.v
theories/T_Optimize.v
theories/M_Elf.v
theories/P_Elf.v
theories/P_ElfSym.v
theories/P_ElfAll.v
theories/T_Elf.v
theories/M_ElfOut.v
theories/P_ElfOut.v
theories/P_ElfOutW.v
theories/P_ElfOutR.v
theories/P_ElfOutAll.v
theories/T_ElfOut.v
theories/M_X86.v
theories/P_X86Len.v
theories/P_X86Jmp.v
theories/T_X86.v
theories/P_X86Reg.v
theories/P_X86Flat.v
theories/P_X86Lin.v
theories/P_X86Ea.v
theories/T_X86Ea.v
theories/M_NasmEval.v
theories/P_NasmEval.v
theories/T_NasmEval.v
theories/M_Float.v
theories/P_FloatZ.v
theories/P_Float.v
theories/P_FloatLit.v
theories/P_FloatDec.v
theories/T_Float.v
theories/M_DwarfLine.v
theories/P_DwarfLine.v
theories/T_DwarfLine.v
theories/M_BinObj.v
theories/P_BinNum.v
theories/P_BinForest.v
theories/P_BinObj.v
theories/P_BinLay.v
theories/P_BinVma.v
theories/P_BinTop.v
theories/P_BinMain.v
theories/P_BinOut.v
theories/P_BinSwitch.v
theories/T_BinObj.v
theories/M_Value.v
theories/P_Value.v
theories/P_ValueTop.v
theories/P_ValueSum.v
theories/P_ValueOut.v
theories/T_Value.v
theories/M_ElfReloc.v
theories/P_ElfReloc.v
theories/P_ElfLink.v
theories/T_ElfReloc.v
theories/M_CoffReloc.v
theories/P_CoffReloc.v
theories/P_CoffLink.v
theories/T_CoffReloc.v
theories/M_CoffOut.v
theories/P_CoffOut.v
theories/P_CoffOutR.v
theories/P_CoffOutF.v
theories/P_CoffOutW.v
theories/T_CoffOut.v
theories/M_ParseExpr.v
theories/P_ParseExpr.v
theories/P_ParseExprN.v
theories/T_ParseExpr.v
theories/M_Win64.v
theories/P_Win64.v
theories/P_Win64L.v
theories/P_Win64T.v
theories/P_Win64A.v
theories/T_Win64.v
theories/M_Print.v
theories/P_Print.v
theories/T_Print.v
theories/M_BinValue.v
theories/P_BinValue.v
theories/P_BinValueTop.v
theories/T_BinValue.v
theories/M_Lc3b.v
theories/P_Lc3b.v
theories/P_Lc3bTop.v
theories/P_Lc3bForms.v
theories/T_Lc3b.v
theories/M_Listing.v
theories/P_Listing.v
theories/T_Listing.v
theories/M_Md5.v
theories/P_Md5.v
theories/T_Md5.v
theories/M_ElfSect.v
theories/P_ElfSect.v
theories/T_ElfSect.v
theories/M_ElfGlobal.v
theories/P_ElfGlobal.v
theories/T_ElfGlobal.v
theories/M_CoffSect.v
theories/P_CoffSect.v
theories/T_CoffSect.v
