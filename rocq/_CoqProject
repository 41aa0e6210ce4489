-Q theories Verif
theories/Base.v
theories/PyFloat_Model.v
theories/PyFloat_Proofs.v
theories/PyFloat_Proofs2.v
theories/Core_Model.v
theories/Core_Spec.v
theories/Core_Proofs.v
theories/Core_Proofs2.v
theories/Core_Proofs3.v
theories/Core_Props.v
theories/Lists.v
theories/Zn_Model.v
theories/Zn_Proofs.v
theories/Zn_Props.v
theories/NT.v
theories/PrimeList_Data.v
theories/PrimeList_Proofs.v
theories/Py.v
theories/Primes_Spec.v
theories/Sieves_Model.v
theories/Sieves_Proofs.v
theories/Sieves_Proofs2.v
theories/NT_Euler.v
theories/TrialDiv_Model.v
theories/Primality_Model.v
theories/Primality_Spec.v
theories/Primality_Proofs.v
theories/Primes_Props.v
theories/Dict.v
theories/Loop.v
theories/Lists2.v
theories/Classify_Model.v
theories/Factor_Model.v
theories/Factor_Spec.v
theories/Rho_Proofs.v
theories/Factor_Proofs.v
theories/Div_Proofs.v
theories/Div_Proofs2.v
theories/Factor_Props.v
theories/Arith_Model.v
theories/Arith_Spec.v
theories/Arith_Proofs.v
theories/Arith_Proofs2.v
theories/Arith_Props.v
theories/Leftist_Model.v
theories/Heap_Spec.v
theories/Leftist_Proofs.v
theories/Pairing_Model.v
theories/Pairing_Spec.v
theories/Pairing_Proofs.v
theories/Pairing_Proofs2.v
theories/Pairing_Proofs3.v
theories/Heap_Props.v
theories/UF_Model.v
theories/UF_Spec.v
theories/UF_Proofs.v
theories/UF_Proofs2.v
theories/UF_Props.v
theories/Bit_Model.v
theories/Bit_Spec.v
theories/Bit_Proofs.v
theories/Bit_Props.v
theories/Gen.v
theories/Lex.v
theories/Perm_Model.v
theories/Perm_Proofs.v
theories/Perm_Proofs2.v
theories/Perm_Proofs3.v
theories/Perm_Props.v
theories/Tuples_Model.v
theories/Tuples_Proofs.v
theories/Tuples_Props.v
theories/Part_Model.v
theories/Part_Proofs.v
theories/Part_Proofs2.v
theories/Part_Props.v
theories/Count.v
theories/Enum_Model.v
theories/Enum_Proofs.v
theories/Enum_Proofs2.v
theories/Enum_Proofs3.v
theories/Enum_Props.v
theories/Tiling_Model.v
theories/Tiling_Spec.v
theories/Tiling_Proofs.v
theories/Tiling_Proofs2.v
theories/Tiling_Proofs3.v
theories/Tiling_Proofs4.v
theories/Tiling_Props.v
theories/Double_Model.v
theories/Double_Proofs.v
theories/Double_Proofs2.v
theories/Knap_Model.v
theories/Knap_Spec.v
theories/Knap_Proofs.v
theories/Knap_Proofs2.v
theories/Knap_Proofs3.v
theories/Knap_Props.v
theories/Cover_Model.v
theories/Cover_Spec.v
theories/Cover_Proofs.v
theories/Cover_Proofs2.v
theories/Cover_Proofs3.v
theories/Cover_Props.v
theories/Graph_Model.v
theories/Graph_Spec.v
theories/Graph_Proofs.v
theories/Graph_Proofs2.v
theories/Graph_Props.v
theories/Graph_Props2.v
theories/Trav_Model.v
theories/Trav_Spec.v
theories/Trav_Proofs.v
theories/Trav_Proofs2.v
theories/Trav_Props.v
theories/Paths_Model.v
theories/Paths_Spec.v
theories/Paths_Proofs.v
theories/Paths_Proofs2.v
theories/Paths_Proofs3.v
theories/Paths_Proofs4.v
theories/Paths_Proofs5.v
theories/Paths_Proofs6.v
theories/Paths_Proofs7.v
theories/Paths_Proofs8.v
theories/Paths_Props.v
theories/MST_Model.v
theories/MST_Spec.v
theories/MST_Proofs.v
theories/MST_Proofs2.v
theories/MST_Proofs3.v
theories/MST_Props.v
theories/Cliq_Spec.v
theories/Cliq_Model.v
theories/Cliq_Proofs.v
theories/Mask_Proofs.v
theories/Cliq_Proofs2.v
theories/Cliq_Props.v
theories/Color_Spec.v
theories/Color_Model.v
theories/Color_Proofs.v
theories/Color_Proofs2.v
theories/Color_Spec2.v
theories/Color_Proofs3.v
theories/Color_Props.v
theories/MaxCliq_Model.v
theories/MaxCliq_Proofs.v
theories/MaxCliq_Proofs2.v
theories/MaxCliq_Proofs3.v
theories/MaxCliq_Props.v
theories/Indep_Spec.v
theories/Indep_Model.v
theories/Indep_Proofs.v
theories/Indep_Props.v
theories/Ham_Spec.v
theories/Ham_Model.v
theories/Ham_Proofs.v
theories/Ham_Proofs2.v
theories/Ham_Proofs3.v
theories/Ham_Props.v
theories/Degree_Spec.v
theories/Degree_Model.v
theories/Degree_Proofs.v
theories/Degree_Proofs2.v
theories/Degree_Proofs3.v
theories/Degree_Props.v
theories/Sums.v
theories/Poly_Spec.v
theories/Poly_Model.v
theories/Poly_Proofs.v
theories/Poly_Proofs2.v
theories/Poly_Proofs3.v
theories/Poly_Proofs4.v
theories/Poly_Proofs5.v
theories/Poly_Props.v
theories/Mat_Spec.v
theories/Mat_Model.v
theories/Mat_MC.v
theories/Mat_Proofs.v
theories/Mat_Proofs2.v
theories/Mat_Props.v
theories/NT_Cong.v
theories/NT_Prim.v
theories/NT_Prim2.v
theories/Ord_Spec.v
theories/Ord_Model.v
theories/Ord_Proofs.v
theories/Ord_Proofs2.v
theories/Ord_Props.v
theories/QR_Spec.v
theories/NT_QR.v
theories/QR_Proofs.v
theories/Sqrt_Model.v
theories/Sqrt_Proofs.v
theories/Sqrt_Proofs2.v
theories/Sqrt_Proofs3.v
theories/QR_Props.v
theories/LL_Proofs.v
theories/LL_Props.v
theories/Tab_Model.v
theories/Tab_Proofs.v
theories/Tab_Proofs2.v
theories/Tab_Proofs3.v
theories/Tab_Props.v
theories/Float2_Proofs.v
theories/Find_Model.v
theories/Find_Spec.v
theories/Find_Proofs.v
theories/Find_Proofs2.v
theories/Find_Proofs3.v
theories/Find_Proofs4.v
theories/Find_Proofs5.v
theories/Find_Proofs6.v
theories/Find_Proofs7.v
theories/Find_Proofs8.v
theories/Find_Props.v
theories/AlgX_Model.v
theories/AlgX_Spec.v
theories/AlgX_Proofs.v
theories/AlgX_Proofs2.v
theories/AlgX_Props.v
theories/TSP_Model.v
theories/TSP_Spec.v
theories/TSP_Proofs.v
theories/TSP_Proofs2.v
theories/TSP_Proofs3.v
theories/TSP_Proofs4.v
theories/TSP_Proofs5.v
theories/TSP_Proofs6.v
theories/TSP_Spec2.v
theories/TSP_Proofs7.v
theories/TSP_Props.v
theories/Classify2_Model.v
theories/Classify_Proofs.v
theories/Classify_Proofs2.v
theories/Classify_Props.v
theories/Pell_Model.v
theories/Pell_Spec.v
theories/Pell_Proofs.v
theories/Pell_Proofs2.v
theories/Pell_Proofs3.v
theories/Pell_Proofs4.v
theories/Pell_Proofs5.v
theories/Pell_Proofs6.v
theories/Pell_Proofs7.v
theories/Pell_Props.v
theories/Pell_Proofs8.v
theories/Pell_Props2.v
theories/Pell_Proofs9.v
theories/Pell_Proofs10.v
theories/Pell_Props3.v
theories/PC_Model.v
theories/PC_Spec.v
theories/PC_Proofs.v
theories/PC_Proofs2.v
theories/PC_Proofs3.v
theories/PC_Proofs4.v
theories/PC_Proofs5.v
theories/PC_Proofs6.v
theories/Bertrand.v
theories/Bertrand2.v
theories/PC_Proofs7.v
theories/PC_Proofs8.v
theories/PC_Proofs9.v
theories/PC_Proofs10.v
theories/PC_Proofs11.v
theories/PC_Proofs12.v
theories/PC_Proofs13.v
theories/PC_Proofs14.v
theories/PC_Props.v
theories/Summ_Model.v
theories/Summ_Proofs.v
theories/Summ_Proofs2.v
theories/Summ_Props.v
theories/Prog_Spec.v
theories/Prog_Model.v
theories/Prog_Proofs.v
theories/Prog_Props.v
theories/Misc_Spec.v
theories/Misc_Model.v
theories/Misc_Proofs.v
theories/Misc_Proofs2.v
theories/Misc_Props.v
theories/Pent_Spec.v
theories/Pent_Model.v
theories/Pent_Proofs.v
theories/Pent_Proofs2.v
theories/Pent_Proofs3.v
theories/Pent_Props.v
theories/Neck_Spec.v
theories/Neck_Model.v
theories/Neck_Proofs.v
theories/Neck_Props.v
theories/Inv_Model.v
theories/Inv_Proofs.v
theories/Inv_Proofs2.v
theories/Inv_Proofs3.v
theories/Inv_Proofs4.v
theories/Inv_Props.v
theories/Cher_Model.v
theories/Cher_Proofs.v
theories/Cher_Props.v
theories/Kor_Model.v
theories/Kor_Proofs.v
theories/Kor_Proofs2.v
theories/Kor_Proofs3.v
theories/Kor_Props.v
theories/Stein_Spec.v
theories/Stein_Model.v
theories/Stein_Proofs.v
theories/Stein_Proofs2.v
theories/Stein_Proofs3.v
theories/Stein_Proofs4.v
theories/Stein_Proofs5.v
theories/Stein_Proofs6.v
theories/Stein_Proofs7.v
theories/Stein_Proofs8.v
theories/Stein_Proofs9.v
theories/Stein_Props.v
theories/Alpha_Spec.v
theories/Alpha_Model.v
theories/Alpha_Proofs.v
theories/Alpha_Proofs2.v
theories/Alpha_Props.v
theories/Chart_Model.v
theories/Chart_Proofs.v
theories/Chart_Props.v
theories/Sud_Spec.v
theories/Sud_Model.v
theories/Sud_Proofs.v
theories/Sud_Proofs2.v
theories/Sud_Proofs3.v
theories/Sud_Props.v
theories/Maxis_Spec.v
theories/Maxis_Model.v
theories/Maxis_Proofs.v
theories/Maxis_Props.v
theories/Gmat_Model.v
theories/Gmat_Proofs.v
theories/Gmat_Props.v
theories/PTest_Spec.v
theories/PTest_Model.v
theories/PTest_Proofs.v
theories/PTest_Proofs2.v
theories/PTest_Props.v
theories/PGcd_Spec.v
theories/PGcd_Model.v
theories/PGcd_Proofs.v
theories/PGcd_Proofs2.v
theories/PGcd_Proofs3.v
theories/PGcd_Props.v
theories/Gts_Spec.v
theories/Gts_Model.v
theories/Gts_Proofs.v
theories/Gts_Proofs2.v
theories/Gts_Proofs3.v
theories/Gts_Props.v
theories/Gab_Spec.v
theories/Gab_Model.v
theories/Gab_Proofs.v
theories/Gab_Proofs2.v
theories/Gab_Proofs3.v
theories/Gab_Proofs4.v
theories/Gab_Proofs5.v
theories/Gab_Proofs6.v
theories/Gab_Proofs7.v
theories/Gab_Props.v
theories/Latin_Spec.v
theories/Latin_Model.v
theories/Latin_Proofs.v
theories/Latin_Proofs2.v
theories/Latin_Proofs3.v
theories/Latin_Props.v
theories/Repr_Spec.v
theories/Repr_Model.v
theories/Repr_Proofs.v
theories/Repr_Proofs2.v
theories/Repr_Proofs3.v
theories/Repr_Props.v
theories/Load_Spec.v
theories/Load_Model.v
theories/Load_Proofs.v
theories/Load_Proofs2.v
theories/Load_Props.v
theories/Odd_Spec.v
theories/Odd_Model.v
theories/Odd_Proofs.v
theories/Odd_Proofs2.v
theories/Odd_Props.v
theories/Mob_Model.v
theories/Mob_Spec.v
theories/Mob_Proofs.v
theories/Mob_Proofs2.v
theories/Mob_Props.v
theories/Euc_Spec.v
theories/Euc_Model.v
theories/Euc_Proofs.v
theories/Euc_Proofs2.v
theories/Euc_Props.v
theories/Gob_Model.v
theories/Gob_Spec.v
theories/Gob_Proofs.v
theories/Gob_Proofs2.v
theories/Gob_Props.v
theories/Mop_Model.v
theories/Mop_Props.v
theories/Plaw_Model.v
theories/Plaw_Props.v
theories/Heapq_Spec.v
theories/Heapq_Model.v
theories/Heapq_Proofs.v
theories/Heapq_Proofs2.v
theories/Heapq_Props.v
theories/Lft_Model.v
theories/Lft_Proofs.v
theories/Lft_Props.v
theories/Expr_Spec.v
theories/Expr_Model.v
theories/Expr_Proofs.v
theories/Expr_Props.v
