Base
PyFloat_Model
PyFloat_Proofs
PyFloat_Proofs2
Core_Model
Core_Spec
Core_Proofs
Core_Proofs2
Core_Proofs3
Core_Props
Lists
Zn_Model
Zn_Proofs
Zn_Props
NT
PrimeList_Data
PrimeList_Proofs
Py
Primes_Spec
Sieves_Model
Sieves_Proofs
Sieves_Proofs2
NT_Euler
TrialDiv_Model
Primality_Model
Primality_Spec
Primality_Proofs
Primes_Props
Dict
Loop
Lists2
Classify_Model
Factor_Model
Factor_Spec
Rho_Proofs
Factor_Proofs
Div_Proofs
Div_Proofs2
Factor_Props
Arith_Model
Arith_Spec
Arith_Proofs
Arith_Proofs2
Arith_Props
Leftist_Model
Heap_Spec
Leftist_Proofs
Pairing_Model
Pairing_Spec
Pairing_Proofs
Pairing_Proofs2
Pairing_Proofs3
Heap_Props
UF_Model
UF_Spec
UF_Proofs
UF_Proofs2
UF_Props
Bit_Model
Bit_Spec
Bit_Proofs
Bit_Props
Gen
Lex
Perm_Model
Perm_Proofs
Perm_Proofs2
Perm_Proofs3
Perm_Props
Tuples_Model
Tuples_Proofs
Tuples_Props
Part_Model
Part_Proofs
Part_Proofs2
Part_Props
Count
Enum_Model
Enum_Proofs
Enum_Proofs2
Enum_Proofs3
Enum_Props
Tiling_Model
Tiling_Spec
Tiling_Proofs
Tiling_Proofs2
Tiling_Proofs3
Tiling_Proofs4
Tiling_Props
Double_Model
Double_Proofs
Double_Proofs2
Knap_Model
Knap_Spec
Knap_Proofs
Knap_Proofs2
Knap_Proofs3
Knap_Props
Cover_Model
Cover_Spec
Cover_Proofs
Cover_Proofs2
Cover_Proofs3
Cover_Props
Graph_Model
Graph_Spec
Graph_Proofs
Graph_Proofs2
Graph_Props
Graph_Props2
Trav_Model
Trav_Spec
Trav_Proofs
Trav_Proofs2
Trav_Props
Paths_Model
Paths_Spec
Paths_Proofs
Paths_Proofs2
Paths_Proofs3
Paths_Proofs4
Paths_Proofs5
Paths_Proofs6
Paths_Proofs7
Paths_Proofs8
Paths_Props
MST_Model
MST_Spec
MST_Proofs
MST_Proofs2
MST_Proofs3
MST_Props
Cliq_Spec
Cliq_Model
Cliq_Proofs
Mask_Proofs
Cliq_Proofs2
Cliq_Props
Color_Spec
Color_Model
Color_Proofs
Color_Proofs2
Color_Spec2
Color_Proofs3
Color_Props
MaxCliq_Model
MaxCliq_Proofs
MaxCliq_Proofs2
MaxCliq_Proofs3
MaxCliq_Props
Indep_Spec
Indep_Model
Indep_Proofs
Indep_Props
Ham_Spec
Ham_Model
Ham_Proofs
Ham_Proofs2
Ham_Proofs3
Ham_Props
Degree_Spec
Degree_Model
Degree_Proofs
Degree_Proofs2
Degree_Proofs3
Degree_Props
Sums
Poly_Spec
Poly_Model
Poly_Proofs
Poly_Proofs2
Poly_Proofs3
Poly_Proofs4
Poly_Proofs5
Poly_Props
Mat_Spec
Mat_Model
Mat_MC
Mat_Proofs
Mat_Proofs2
Mat_Props
NT_Cong
NT_Prim
NT_Prim2
Ord_Spec
Ord_Model
Ord_Proofs
Ord_Proofs2
Ord_Props
QR_Spec
NT_QR
QR_Proofs
Sqrt_Model
Sqrt_Proofs
Sqrt_Proofs2
Sqrt_Proofs3
QR_Props
LL_Proofs
LL_Props
Tab_Model
Tab_Proofs
Tab_Proofs2
Tab_Proofs3
Tab_Props
Float2_Proofs
Find_Model
Find_Spec
Find_Proofs
Find_Proofs2
Find_Proofs3
Find_Proofs4
Find_Proofs5
Find_Proofs6
Find_Proofs7
Find_Proofs8
Find_Props
AlgX_Model
AlgX_Spec
AlgX_Proofs
AlgX_Proofs2
AlgX_Props
TSP_Model
TSP_Spec
TSP_Proofs
TSP_Proofs2
TSP_Proofs3
TSP_Proofs4
TSP_Proofs5
TSP_Proofs6
TSP_Spec2
TSP_Proofs7
TSP_Props
Classify2_Model
Classify_Proofs
Classify_Proofs2
Classify_Props
Pell_Model
Pell_Spec
Pell_Proofs
Pell_Proofs2
Pell_Proofs3
Pell_Proofs4
Pell_Proofs5
Pell_Proofs6
Pell_Proofs7
Pell_Props
Pell_Proofs8
Pell_Props2
Pell_Proofs9
Pell_Proofs10
Pell_Props3
PC_Model
PC_Spec
PC_Proofs
PC_Proofs2
PC_Proofs3
PC_Proofs4
PC_Proofs5
PC_Proofs6
Bertrand
Bertrand2
PC_Proofs7
PC_Proofs8
PC_Proofs9
PC_Proofs10
PC_Proofs11
PC_Proofs12
PC_Proofs13
PC_Proofs14
PC_Props
Summ_Model
Summ_Proofs
Summ_Proofs2
Summ_Props
Prog_Spec
Prog_Model
Prog_Proofs
Prog_Props
Misc_Spec
Misc_Model
Misc_Proofs
Misc_Proofs2
Misc_Props
Pent_Spec
Pent_Model
Pent_Proofs
Pent_Proofs2
Pent_Proofs3
Pent_Props
Neck_Spec
Neck_Model
Neck_Proofs
Neck_Props
Inv_Model
Inv_Proofs
Inv_Proofs2
Inv_Proofs3
Inv_Proofs4
Inv_Props
Cher_Model
Cher_Proofs
Cher_Props
Kor_Model
Kor_Proofs
Kor_Proofs2
Kor_Proofs3
Kor_Props
Stein_Spec
Stein_Model
Stein_Proofs
Stein_Proofs2
Stein_Proofs3
Stein_Proofs4
Stein_Proofs5
Stein_Proofs6
Stein_Proofs7
Stein_Proofs8
Stein_Proofs9
Stein_Props
Alpha_Spec
Alpha_Model
Alpha_Proofs
Alpha_Proofs2
Alpha_Props
Chart_Model
Chart_Proofs
Chart_Props
Sud_Spec
Sud_Model
Sud_Proofs
Sud_Proofs2
Sud_Proofs3
Sud_Props
Maxis_Spec
Maxis_Model
Maxis_Proofs
Maxis_Props
Gmat_Model
Gmat_Proofs
Gmat_Props
PTest_Spec
PTest_Model
PTest_Proofs
PTest_Proofs2
PTest_Props
PGcd_Spec
PGcd_Model
PGcd_Proofs
PGcd_Proofs2
PGcd_Proofs3
PGcd_Props
Gts_Spec
Gts_Model
Gts_Proofs
Gts_Proofs2
Gts_Proofs3
Gts_Props
Gab_Spec
Gab_Model
Gab_Proofs
Gab_Proofs2
Gab_Proofs3
Gab_Proofs4
Gab_Proofs5
Gab_Proofs6
Gab_Proofs7
Gab_Props
Latin_Spec
Latin_Model
Latin_Proofs
Latin_Proofs2
Latin_Proofs3
Latin_Props
Repr_Spec
Repr_Model
Repr_Proofs
Repr_Proofs2
Repr_Proofs3
Repr_Props
Load_Spec
Load_Model
Load_Proofs
Load_Proofs2
Load_Props
Odd_Spec
Odd_Model
Odd_Proofs
Odd_Proofs2
Odd_Props
Mob_Model
Mob_Spec
Mob_Proofs
Mob_Proofs2
Mob_Props
Euc_Spec
Euc_Model
Euc_Proofs
Euc_Proofs2
Euc_Props
Gob_Model
Gob_Spec
Gob_Proofs
Gob_Proofs2
Gob_Props
Mop_Model
Mop_Props
Plaw_Model
Plaw_Props
Heapq_Spec
Heapq_Model
Heapq_Proofs
Heapq_Proofs2
Heapq_Props
Lft_Model
Lft_Proofs
Lft_Props
Expr_Spec
Expr_Model
Expr_Proofs
Expr_Props
