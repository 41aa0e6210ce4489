{
 "claims": [
  {
   "property": "C01",
   "status": "proved",
   "theorems": [
    "C01_gcd",
    "C01_ext_gcd",
    "C01_lcm",
    "C01_gcd_list",
    "C01_lcm_list",
    "C01_short_lists"
   ],
   "note": ""
  },
  {
   "property": "C02",
   "status": "proved",
   "theorems": [
    "C02_power_mod",
    "C02_power_mod_refuted",
    "C02_power_mod_error"
   ],
   "note": ""
  },
  {
   "property": "C03",
   "status": "proved",
   "theorems": [
    "C03_inverse_mod",
    "C03_inverse_mod_error"
   ],
   "note": ""
  },
  {
   "property": "C04",
   "status": "proved",
   "theorems": [
    "C04_integer_nth_root",
    "C04_integer_nth_root_error",
    "C04_integer_nth_root_2",
    "C04_integer_sqrt_exact",
    "C04_integer_sqrt_near",
    "C04_integer_sqrt_refuted",
    "C04_integer_sqrt_exact_53",
    "C04_integer_sqrt_error",
    "C04_floor_root_unique"
   ],
   "note": ""
  },
  {
   "property": "C05",
   "status": "proved",
   "theorems": [
    "C05_integer_log",
    "C05_integer_log_error"
   ],
   "note": ""
  },
  {
   "property": "C06",
   "status": "proved",
   "theorems": [
    "C06_chinese",
    "C06_chinese_preconditioned",
    "C06_short"
   ],
   "note": ""
  },
  {
   "property": "C07",
   "status": "proved",
   "theorems": [
    "C07_valuation",
    "C07_valuation_nonpositive",
    "C07_valuation_refuted",
    "C07_valuation_diverges",
    "C07_valuation_diverges_minus_one",
    "C07_valuation_negative_base",
    "C07_valuation_negative_both",
    "C07_valuation_zero_negative_base"
   ],
   "note": ""
  },
  {
   "property": "C08",
   "status": "proved",
   "theorems": [
    "C08_jacobi_symbol",
    "C08_jacobi_symbol_even",
    "C08_legendre",
    "C08_jacobi_symbol_negative",
    "C08_reciprocity"
   ],
   "note": "Odd m of either sign, even m raises. Quadratic reciprocity is proved from scratch (Gauss lemma and lattice points)."
  },
  {
   "property": "C09",
   "status": "proved",
   "theorems": [
    "C09_bit_count"
   ],
   "note": ""
  },
  {
   "property": "C10",
   "status": "proved",
   "theorems": [
    "C10_linear_congruence",
    "C10_linear_congruence_error"
   ],
   "note": ""
  },
  {
   "property": "C11",
   "status": "proved",
   "theorems": [
    "C11_sqrts_mod_p",
    "C11_sqrts_mod_p_sound",
    "C11_sqrts_mod_p_error",
    "C11_half_are_nonresidues"
   ],
   "note": "The random draws are a parameter: the result is exact for every draw sequence, and exists when one of the draws is a nonresidue (half of them are)."
  },
  {
   "property": "C12",
   "status": "proved",
   "theorems": [
    "C12_is_primitive_root",
    "C12_is_primitive_root_error",
    "C12_is_primitive_root_small",
    "C12_primitive_root",
    "C12_primitive_root_small",
    "C12_primitive_root_prime",
    "C12_multiplicative_order",
    "C12_multiplicative_order_error",
    "C12_multiplicative_order_small",
    "C12_multiplicative_order_refuted",
    "C12_roots_of_unity",
    "C12_roots_of_minus1",
    "C12_discrete_log_sound",
    "C12_discrete_log_complete",
    "C12_discrete_log_error",
    "C12_fibonacci_primitive_roots"
   ],
   "note": ""
  },
  {
   "property": "C13",
   "status": "proved",
   "theorems": [
    "C13_sqrts_mod_n",
    "C13_sqrts_mod_n_small",
    "C13_sqrts_mod_n_refuted",
    "C13_quadratic_congruence",
    "C13_quadratic_congruence_small",
    "C13_quadratic_congruence_refuted"
   ],
   "note": "n >= 2 and a <> 0; n = 1 (IndexError) and a = 0 (endless loop) are refuted. Factorizations of intermediate moduli are a hypothesis, discharged below 10^12 by the _small theorems."
  },
  {
   "property": "C14",
   "status": "proved",
   "theorems": [
    "C14_chartres",
    "C14_primes",
    "C14_eratosthenes1",
    "C14_eratosthenes2",
    "C14_luo",
    "C14_pritchard",
    "C14_unique",
    "C14_primes_first_n",
    "C14_primes_first_n_large"
   ],
   "note": ""
  },
  {
   "property": "C15",
   "status": "proved",
   "theorems": [
    "C15_lucas_lehmer",
    "C15_lucas_lehmer_two_refuted",
    "C15_miller_rabin",
    "C15_is_probable_prime",
    "C15_is_probable_prime_total",
    "C15_is_probable_prime_composite",
    "C15_solovay_strassen_prime",
    "C15_solovay_strassen"
   ],
   "note": ""
  },
  {
   "property": "C16",
   "status": "proved",
   "theorems": [
    "C16_is_prime",
    "C16_next_prime",
    "C16_next_prime_nonpos",
    "C16_next_probable_prime",
    "C16_random_prime",
    "C16_random_prime_complete"
   ],
   "note": ""
  },
  {
   "property": "C17",
   "status": "proved",
   "theorems": [
    "C17_prime_table",
    "C17_prime_table_size"
   ],
   "note": ""
  },
  {
   "property": "C18",
   "status": "proved",
   "theorems": [
    "C18_factor_power_detection",
    "C18_factor_power_detection_negative_refuted",
    "C18_factor_sound",
    "C18_factor_prime",
    "C18_factor_small",
    "C18_factor_terminates",
    "C18_pollard_rho_brent",
    "C18_factor_zero",
    "C18_factorization_unique",
    "C18_exponents",
    "C18_factor_back",
    "C18_factor_refuted"
   ],
   "note": ""
  },
  {
   "property": "C19",
   "status": "proved",
   "theorems": [
    "C19_divisors",
    "C19_xdivisors",
    "C19_prime_divisors",
    "C19_divisor_pairs",
    "C19_divisor_pairs_1_refuted",
    "C19_unitary_divisors",
    "C19_unitary_divisors_1_refuted",
    "C19_divisors_factorization",
    "C19_divisors_any"
   ],
   "note": ""
  },
  {
   "property": "C20",
   "status": "proved",
   "theorems": [
    "C20_trial_division",
    "C20_trial_division_bound"
   ],
   "note": ""
  },
  {
   "property": "C21",
   "status": "proved",
   "theorems": [
    "C21_fermat_divides",
    "C21_fermat",
    "C21_fermat_prime",
    "C21_fermat_refuted",
    "C21_fermat_edges",
    "C21_lehman",
    "C21_lehman_refuted",
    "C21_pollard_p_minus_1",
    "C21_pollard_rho",
    "C21_pollard_rho_small",
    "C21_pollard_rho_brent"
   ],
   "note": "Random choices are universally quantified. fermat: exact greatest divisor outside 2^52..2^60; C21_fermat_refuted exhibits twin primes whose product is returned unfactored in between. lehman: divisor > 1 always, least prime factor up to the cube root; C21_lehman_refuted shows a composite number returned as is."
  },
  {
   "property": "C22",
   "status": "proved",
   "theorems": [
    "C22_z2_gaussian_elimination",
    "C22_errors"
   ],
   "note": "The returned vectors are a basis of the kernel (each kernel vector is a unique sum of them)."
  },
  {
   "property": "C23",
   "status": "proved",
   "theorems": [
    "C23_denotes_small",
    "C23_euler_phi",
    "C23_divisor_tau",
    "C23_divisor_sigma",
    "C23_moebius_mu",
    "C23_moebius_unique",
    "C23_is_squarefree",
    "C23_errors",
    "C23_carmichael_lambda"
   ],
   "note": ""
  },
  {
   "property": "C24",
   "status": "proved",
   "theorems": [
    "C24_euler_phi_list",
    "C24_moebius_list",
    "C24_tau_list",
    "C24_sigma_list",
    "C24_sigma_list_0",
    "C24_errors",
    "C24_sigma_list_negative",
    "C24_moebius_range",
    "C24_moebius_range_one"
   ],
   "note": "phi and sigma for every n; moebius_list below 2^104 and tau_list below 2^52, where int(n**0.5) is near enough; also the generator moebius_range."
  },
  {
   "property": "C25",
   "status": "proved",
   "theorems": [
    "C25_factorial",
    "C25_factorial_error",
    "C25_primorial",
    "C25_primorial_large",
    "C25_primorial_error"
   ],
   "note": ""
  },
  {
   "property": "C26",
   "status": "proved",
   "theorems": [
    "C26_legendre",
    "C26_meissel",
    "C26_lehmer",
    "C26_lehmer_refuted",
    "C26_lehmer_powers_refuted",
    "C26_lmo",
    "C26_lmo_bit",
    "C26_lmo_bit_cubes_refuted",
    "C26_lmo_bit_small_refuted",
    "C26_unique",
    "C26_prime_sum",
    "C26_prime_sum2",
    "C26_prime_sum_refuted",
    "C26_prime_count",
    "C26_prime_count_refuted",
    "C26_pi_table",
    "C26_pi_table_small_refuted"
   ],
   "note": "Legendre's method for all n; Meissel's with exact floating-point roots (hypothesis floats_exact on the roots taken as oracles); prime_sum and prime_count where integer_sqrt is exact (C04); pi_table. Lehmer's method characterised exactly: right when a prime lies between n//q and n^(3/4) for every prime q > n^(1/4), too small otherwise (e.g. for n = p^4-1, every prime p >= 37). Refuted: prime_sum2(0) = -1, prime_sum(0) raises IndexError, prime_count maps 1 to 1, pi_table raises UnboundLocalError for n < 2. lmo is right for all x; lmo_bit for x >= 8 when the integer parts of the three floating-point powers are right; it is too large by one at p^3 for every odd prime p (the exponent 0.33333333333333 is below 1/3) and raises IndexError below 8."
  },
  {
   "property": "C27",
   "status": "proved",
   "theorems": [
    "C27_convergents",
    "C27_square_root",
    "C27_square_root_error",
    "C27_square_root_float_refuted",
    "C27_fundamental_sound",
    "C27_fundamental_solution",
    "C27_pell_solvable",
    "C27_fundamental_error",
    "C27_pell_equation",
    "C27_resolvent_solution_refuted",
    "C27_pell_small_sound",
    "C27_pell_small_units",
    "C27_pell_small_minimal_sound",
    "C27_minimal_sorted",
    "C27_minimal_sound",
    "C27_generator_sound",
    "C27_minimal_complete",
    "C27_generator_complete",
    "C27_sqrts_hypothesis",
    "C27_minimal_square_refuted",
    "C27_farey_sound",
    "C27_farey_least",
    "C27_farey_diverges",
    "C27_quadratic",
    "C27_quadratic_negative_refuted",
    "C27_quadratic_separated_refuted",
    "C27_quadratic_scaled_refuted",
    "C27_pell_small",
    "C27_pell_small_common_factor_refuted",
    "C27_pell_small_guard_refuted",
    "C27_pell_small_minimal",
    "C27_pell_small_minimal_square_refuted"
   ],
   "note": "Continued fractions of square roots (expansion, shortest period, recurrence, determinant), least Pell solutions for n = 1 and n = -1 with the exact non-existence criterion, completeness of the solution families for non-square N (refuted for square N > 1), pell_small and its companion for N^2 < D (Lagrange's theorem: the coprime solutions are convergents; three refutations for common factors, the guard and square N), the Farey search. exact_range excludes 2^52..2^60 where integer_sqrt is off by one (refuted there). The floating-point bound of pell_minimal_positive_solutions is a parameter: soundness holds for every value, completeness for the exact one. General (p + sqrt d)/q: C27_quadratic proves the expansion for q > 0, q | d - p^2 and an integer between the number and its conjugate; three refutations show each hypothesis is needed (negative q, no integer between the conjugates, scaling with a false period)."
  },
  {
   "property": "C28",
   "status": "proved",
   "theorems": [
    "C28_partial_sum",
    "C28_entries",
    "C28_array_partial_sum",
    "C28_zero"
   ],
   "note": ""
  },
  {
   "property": "C29",
   "status": "proved",
   "theorems": [
    "C29_history",
    "C29_iterate",
    "C29_contents_sorted",
    "C29_init_error",
    "C29_depth",
    "C29_any_order"
   ],
   "note": ""
  },
  {
   "property": "C30",
   "status": "proved",
   "theorems": [
    "C30_history",
    "C30_no_error",
    "C30_insert_values",
    "C30_increase_refuted",
    "C30_duplicate_refuted"
   ],
   "note": ""
  },
  {
   "property": "C31",
   "status": "proved",
   "theorems": [
    "C31_history",
    "C31_connected",
    "C31_arbitrary_union_refuted",
    "C31_arbitrary_sound",
    "C31_arbitrary_union_cycle_refuted",
    "C31_named_history",
    "C31_named_self_union_refuted"
   ],
   "note": ""
  },
  {
   "property": "C32",
   "status": "proved",
   "theorems": [
    "C32_transparent",
    "C32_called_once"
   ],
   "note": ""
  },
  {
   "property": "C33",
   "status": "proved",
   "theorems": [
    "C33_combinations",
    "C33_out_of_range_refuted"
   ],
   "note": ""
  },
  {
   "property": "C34",
   "status": "proved",
   "theorems": [
    "C34_n_tuples_mixed",
    "C34_n_tuples_base",
    "C34_n_tuples_default"
   ],
   "note": ""
  },
  {
   "property": "C35",
   "status": "proved",
   "theorems": [
    "C35_knuth_algorithm_l",
    "C35_phillips",
    "C35_phillips_two",
    "C35_phillips_one",
    "C35_phillips_refuted"
   ],
   "note": ""
  },
  {
   "property": "C36",
   "status": "proved",
   "theorems": [
    "C36_variations",
    "C36_rvariations",
    "C36_rvariations_refuted"
   ],
   "note": ""
  },
  {
   "property": "C37",
   "status": "proved",
   "theorems": [
    "C37_all_partitions",
    "C37_num_parts",
    "C37_custom_parts",
    "C37_distinct",
    "C37_distinct_custom",
    "C37_refuted"
   ],
   "note": ""
  },
  {
   "property": "C38",
   "status": "proved",
   "theorems": [
    "C38_binomial",
    "C38_binomial_out_of_range_refuted",
    "C38_multinomial",
    "C38_multinomial_counts",
    "C38_multinomial_errors"
   ],
   "note": ""
  },
  {
   "property": "C39",
   "status": "proved",
   "theorems": [
    "C39_bell",
    "C39_bell_negative",
    "C39_stirling_refuted",
    "C39_stirling_raises_refuted",
    "C39_stirling_few",
    "C39_stirling_negative",
    "C39_stirling_small"
   ],
   "note": ""
  },
  {
   "property": "C40",
   "status": "proved",
   "theorems": [
    "C40_bipartitions"
   ],
   "note": ""
  },
  {
   "property": "C41",
   "status": "proved",
   "theorems": [
    "C41_domino_tilings",
    "C41_triomino_tilings",
    "C41_empty_board",
    "C41_empty_board_triomino"
   ],
   "note": ""
  },
  {
   "property": "C42",
   "status": "proved",
   "theorems": [
    "C42_solutions",
    "C42_number_of_solutions",
    "C42_width",
    "C42_domino_tilings",
    "C42_domino_tilings_refuted",
    "C42_langford_pairings"
   ],
   "note": ""
  },
  {
   "property": "C43",
   "status": "proved",
   "theorems": [
    "C43_algorithmx",
    "C43_restored",
    "C43_key_error"
   ],
   "note": "Iteration orders of sets are arbitrary permutations. Labels are integers; each set is given by its iteration order, without repetitions. Empty sets are never part of a yielded cover, as the spec says."
  },
  {
   "property": "C44",
   "status": "proved",
   "theorems": [
    "C44_depth_first",
    "C44_dynamic_programming",
    "C44_solvers_agree",
    "C44_dynamic_programming_negative"
   ],
   "note": ""
  },
  {
   "property": "C45",
   "status": "proved",
   "theorems": [
    "C45_annealing",
    "C45_annealing_any_values",
    "C45_annealing_negative_refuted"
   ],
   "note": ""
  },
  {
   "property": "C46",
   "status": "proved",
   "theorems": [
    "C46_depth_first",
    "C46_branch_and_bound",
    "C46_exact_methods_agree",
    "C46_two_opt",
    "C46_two_opt_asymmetric_refuted",
    "C46_two_opt_asymmetric_endless_refuted",
    "C46_two_opt_tour",
    "C46_farthest_insertion",
    "C46_farthest_insertion_rule",
    "C46_insertion_edges",
    "C46_steepest_ascent",
    "C46_steepest_ascent_given_matrix_refuted",
    "C46_annealing",
    "C46_annealing_zero_refuted",
    "C46_annealing_two_points_refuted",
    "C46_random_two_opt",
    "C46_random_two_opt_three_points_refuted",
    "C46_random_two_opt_some_draw",
    "C46_no_points"
   ],
   "note": "Integer distances (given matrix); the euclidean float matrix is not modelled. Exact methods proved optimal for arbitrary (asymmetric, negative) distances; two_opt needs symmetry (refuted without). steepest_ascent_two_opt with a given matrix reports a wrong cost (refuted); random_two_opt never returns on at most 3 points."
  },
  {
   "property": "C47",
   "status": "proved",
   "theorems": [
    "C47_list_add",
    "C47_list_subtract",
    "C47_mul_classical",
    "C47_mul_karatsuba",
    "C47_ps_mult_karatsuba",
    "C47_ps_mult_classical",
    "C47_ps_mult_karatsuba_threshold_refuted"
   ],
   "note": ""
  },
  {
   "property": "C48",
   "status": "proved",
   "theorems": [
    "C48_power_jcp",
    "C48_power_jcp_zero_refuted",
    "C48_ps_power",
    "C48_ps_power_zero_refuted",
    "C48_power_binary",
    "C48_pow"
   ],
   "note": ""
  },
  {
   "property": "C49",
   "status": "proved",
   "theorems": [
    "C49_pseudo_quo_rem",
    "C49_quo_rem",
    "C49_quo_rem_zero",
    "C49_quo_rem_exact",
    "C49_quo_rem_floor",
    "C49_quo_rem_degree_refuted"
   ],
   "note": ""
  },
  {
   "property": "C50",
   "status": "proved",
   "theorems": [
    "C50_normal",
    "C50_eq",
    "C50_eq_number",
    "C50_call",
    "C50_add",
    "C50_add_number",
    "C50_neg",
    "C50_sub",
    "C50_rsub",
    "C50_sub_number_refuted",
    "C50_mul",
    "C50_mul_number",
    "C50_pow"
   ],
   "note": ""
  },
  {
   "property": "C51",
   "status": "proved",
   "theorems": [
    "C51_ps_invert",
    "C51_ps_invert_refuted",
    "C51_ps_invert_empty"
   ],
   "note": ""
  },
  {
   "property": "C52",
   "status": "proved",
   "theorems": [
    "C52_add",
    "C52_sub",
    "C52_neg",
    "C52_scale",
    "C52_product",
    "C52_product_refuted",
    "C52_product_shapes",
    "C52_add_shapes_refuted",
    "C52_add_smaller",
    "C52_delete_row",
    "C52_delete_col"
   ],
   "note": ""
  },
  {
   "property": "C53",
   "status": "proved",
   "theorems": [
    "C53_determinant",
    "C53_determinant_nonzero",
    "C53_determinant_1",
    "C53_not_square",
    "C53_determinant_refuted",
    "C53_determinant_2_refuted",
    "C53_zero_refuted",
    "C53_pure_refuted"
   ],
   "note": ""
  },
  {
   "property": "C54",
   "status": "proved",
   "theorems": [
    "C54_operation",
    "C54_histories"
   ],
   "note": ""
  },
  {
   "property": "C55",
   "status": "proved",
   "theorems": [
    "C55_edge_set",
    "C55_neighbors",
    "C55_neighbors_error",
    "C55_total_degree",
    "C55_complement",
    "C55_induced_subgraph",
    "C55_induced_subgraph_error",
    "C55_remove_vertices",
    "C55_remove_vertex",
    "C55_remove_edge",
    "C55_remove_neighborhood",
    "C55_remove_closed_neighborhood",
    "C55_extreme_degree",
    "C55_extreme_degree_empty",
    "C55_vertices",
    "C55_vertices_by_degree",
    "C55_vertices_induced"
   ],
   "note": ""
  },
  {
   "property": "C56",
   "status": "proved",
   "theorems": [
    "C56_breadth_first_search",
    "C56_missing_start",
    "C56_breadth_first_search_tree",
    "C56_tree_missing_start"
   ],
   "note": ""
  },
  {
   "property": "C57",
   "status": "proved",
   "theorems": [
    "C57_depth_first_search",
    "C57_depth_first_search_tree",
    "C57_same_order",
    "C57_missing_start",
    "C57_max_depth_large",
    "C57_max_depth_refuted"
   ],
   "note": ""
  },
  {
   "property": "C58",
   "status": "proved",
   "theorems": [
    "C58_connected_components",
    "C58_connected_component",
    "C58_is_connected"
   ],
   "note": ""
  },
  {
   "property": "C59",
   "status": "proved",
   "theorems": [
    "C59_dijkstra",
    "C59_dijkstra_buckets",
    "C59_dijkstra_pairing_heap",
    "C59_dijkstra_iterator",
    "C59_missing_source"
   ],
   "note": "All four variants; integer weights, heapq as extraction of the least entry."
  },
  {
   "property": "C60",
   "status": "proved",
   "theorems": [
    "C60_bellman_ford",
    "C60_value_error"
   ],
   "note": "Undirected graphs, as the Graph class builds them. The predecessor map is also shown to describe shortest paths."
  },
  {
   "property": "C61",
   "status": "proved",
   "theorems": [
    "C61_floyd_warshall",
    "C61_negative_edge",
    "C61_without_loops",
    "C61_loops",
    "C61_negative_loop_refuted"
   ],
   "note": "Negative loops are ignored by the code (refuted theorem); negative edges between distinct vertices raise ValueError."
  },
  {
   "property": "C62",
   "status": "proved",
   "theorems": [
    "C62_dijkstra_bidirectional",
    "C62_same_vertex",
    "C62_missing_vertex"
   ],
   "note": "For s == t the code returns (inf, []) (stated as it is)."
  },
  {
   "property": "C63",
   "status": "proved",
   "theorems": [
    "C63_prim",
    "C63_prim_previous",
    "C63_prim_default_root",
    "C63_prim_missing_root",
    "C63_kruskal",
    "C63_kruskal_disconnected",
    "C63_kruskal_empty",
    "C63_same_weight"
   ],
   "note": ""
  },
  {
   "property": "C64",
   "status": "proved",
   "theorems": [
    "C64_bron_kerbosch",
    "C64_bron_kerbosch_binary",
    "C64_tomita",
    "C64_agree"
   ],
   "note": ""
  },
  {
   "property": "C65",
   "status": "proved",
   "theorems": [
    "C65_pardalos",
    "C65_pardalos_binary",
    "C65_ostergard",
    "C65_ostergard_binary",
    "C65_binary_same",
    "C65_ostergard_empty",
    "C65_maximum_weight_clique",
    "C65_maximum_weight_clique_default",
    "C65_maximum_weight_clique_missing",
    "C65_maximum_weight_clique_negative_refuted",
    "C65_maximum_weight_clique_any_weights"
   ],
   "note": ""
  },
  {
   "property": "C66",
   "status": "proved",
   "theorems": [
    "C66_greedy_sequential",
    "C66_second_pass",
    "C66_greedy_sequential_empty",
    "C66_dsatur",
    "C66_dsatur_rule",
    "C66_dsatur_empty"
   ],
   "note": ""
  },
  {
   "property": "C67",
   "status": "proved",
   "theorems": [
    "C67_branch_and_bound",
    "C67_branch_and_bound_complete_refuted",
    "C67_branch_and_bound_empty"
   ],
   "note": ""
  },
  {
   "property": "C68",
   "status": "proved",
   "theorems": [
    "C68_branch_and_bound",
    "C68_greedy",
    "C68_culberson",
    "C68_maximum_independent_set",
    "C68_maximum_independent_set_empty_refuted",
    "C68_maximal_independent_sets",
    "C68_culberson_maximal_refuted"
   ],
   "note": ""
  },
  {
   "property": "C69",
   "status": "proved",
   "theorems": [
    "C69_hamiltonian_paths",
    "C69_hamiltonian_paths_con",
    "C69_is_connected2",
    "C69_number_of_hamiltonian_paths",
    "C69_bits",
    "C69_bits_con",
    "C69_inclusion_exclusion",
    "C69_inclusion_exclusion_one_refuted",
    "C69_inclusion_exclusion_con_refuted",
    "C69_inclusion_exclusion_con_complete",
    "C69_empty"
   ],
   "note": ""
  },
  {
   "property": "C70",
   "status": "proved",
   "theorems": [
    "C70_is_graphic",
    "C70_erdos_gallai_necessary",
    "C70_erdos_gallai",
    "C70_erdos_gallai_exact",
    "C70_agree",
    "C70_erdos_gallai_parity_refuted",
    "C70_erdos_gallai_negative_refuted"
   ],
   "note": ""
  },
  {
   "property": "C71",
   "status": "proved",
   "theorems": [
    "C71_prime_range_small",
    "C71_prime_range_large",
    "C71_prime_range_small_refuted",
    "C71_prime_range_large_refuted"
   ],
   "note": ""
  },
  {
   "property": "C72",
   "status": "proved",
   "theorems": [
    "C72_is_square",
    "C72_is_square_test",
    "C72_is_square_zero_refuted",
    "C72_is_square_factorization",
    "C72_is_square_factorization_of_one_refuted",
    "C72_is_square_negative_factorization",
    "C72_is_power",
    "C72_is_power_one_refuted",
    "C72_is_power_exponent",
    "C72_is_power_errors",
    "C72_is_power_factorization",
    "C72_is_power_agrees",
    "C72_is_power_factorization_exponent",
    "C72_is_power2",
    "C72_is_factorial"
   ],
   "note": "is_square, is_power (integer and factorization arguments, with and without exponent), is_power2, is_factorial. Refuted corners: is_square(0) is falsy, is_power(1) is False, the empty factorization of 1 raises IndexError, factor(n, skip_power_detection=False) raises for n < 0. is_prime_power, is_totient, is_polygonal, is_powerful, is_fibonacci, is_perfect are stubs."
  },
  {
   "property": "C73",
   "status": "proved",
   "theorems": [
    "C73_branch_and_bound",
    "C73_large_values_refuted",
    "C73_feasible",
    "C73_zero_weight"
   ],
   "note": "double precision rounding modelled exactly (Double_Model.v); optimality proved when the total value is at most 2^49 (weights and capacity up to 2^900); C73_large_values_refuted: with two items of value about 2^53 the rounded bound prunes the optimum"
  },
  {
   "property": "C74",
   "status": "proved",
   "theorems": [
    "C74_complete_graph",
    "C74_complete_graph_refuted",
    "C74_coprime_pairs_graph",
    "C74_grid_graph",
    "C74_random_graph",
    "C74_petersen_graph"
   ],
   "note": ""
  },
  {
   "property": "C75",
   "status": "proved",
   "theorems": [
    "C75_smooth_factor",
    "C75_smooth_factor_edges",
    "C75_aq_pairs",
    "C75_relation",
    "C75_multiplier",
    "C75_cfrac",
    "C75_cfrac_square_refuted"
   ],
   "note": "B (float expression) is an arbitrary function with value >= 2; rounds bounds the search for smooth values, so Diverge stands for a search that is still running. C75_cfrac_square_refuted: squares fail."
  },
  {
   "property": "C76",
   "status": "proved",
   "theorems": [
    "C76_euler_phi_sum",
    "C76_euler_phi_weighted_sum",
    "C76_moebius_sum",
    "C76_sigma_sum",
    "C76_errors",
    "C76_sigma_sum_refuted"
   ],
   "note": "Dirichlet hyperbola method with the shared cache modelled as a dictionary passed along; exact for n < 2^52 where int(n**0.5) is the integer root; sigma_sum is short by a at every a^2 - 1 with 2^26 < a <= 2^52 (refuted)."
  },
  {
   "property": "C77",
   "status": "proved",
   "theorems": [
    "C77_three_term",
    "C77_longest_ap",
    "C77_longest_ap_pairs",
    "C77_longest_ap_refuted"
   ],
   "note": "Complete for both functions; C77_longest_ap_refuted: without a three term progression not all longest (two term) progressions are returned, e.g. longest_ap([1, 2]) = []."
  },
  {
   "property": "C78",
   "status": "proved",
   "theorems": [
    "C78_maximize_divisors",
    "C78_maximize_divisors_bits",
    "C78_bernoulli_list",
    "C78_bernoulli_odd",
    "C78_bernoulli_list_zero_refuted",
    "C78_largest_divisor",
    "C78_largest_divisor_refuted"
   ],
   "note": "C78_bernoulli_list_zero_refuted: bernoulli_list(0) raises IndexError. C78_largest_divisor_refuted: factor is looked up in a package whose __init__ is empty, so every call where b does not divide n raises AttributeError."
  },
  {
   "property": "C79",
   "status": "proved",
   "theorems": [
    "C79_partition_list",
    "C79_partition_number",
    "C79_partition_list_zero_refuted",
    "C79_rth_power",
    "C79_rth_power_refuted",
    "C79_eta_series",
    "C79_delta_series",
    "C79_eta_empty"
   ],
   "note": "Pentagonal number theorem proved (finite form, induction). C79_partition_list_zero_refuted: partition_list(0) raises IndexError. C79_rth_power_refuted: therefore rth_power_partition_number raises for every n >= 1 and r <> 1."
  },
  {
   "property": "C80",
   "status": "proved",
   "theorems": [
    "C80_necklaces",
    "C80_necklaces_small",
    "C80_weights_refuted"
   ],
   "note": "Proved by double counting of pairs (rotation, fixed string). The weights argument is refuted: gcd is called with one argument."
  },
  {
   "property": "C81",
   "status": "proved",
   "theorems": [
    "C81_euler_phi_inverse",
    "C81_euler_phi_inverse_small",
    "C81_errors"
   ],
   "note": "Invariant over the processed primes for the list of pairs (a, b); divisors, is_prime and factor_back are the proved models."
  },
  {
   "property": "C82",
   "status": "proved",
   "theorems": [
    "C82_inverse_phi",
    "C82_inverse_phi_small",
    "C82_raises_iff",
    "C82_not_four",
    "C82_raises_refuted",
    "C82_one_refuted"
   ],
   "note": "Dictionary iteration is modelled with CPython's size check at every step; lists may grow while traversed. C82_raises_iff says exactly when the RuntimeError comes; in particular always if 8 divides n (refuted) and never if 4 does not. 1 is missing for n = 1 (refuted)."
  },
  {
   "property": "C83",
   "status": "proved",
   "theorems": [
    "C83_cheriton_tarjan",
    "C83_disconnected_refuted",
    "C83_leaf_refuted",
    "C83_same_weight",
    "C83_leftist_heaps",
    "C83_cheriton_tarjan_leftist"
   ],
   "note": "Random choice is a universally quantified function. LeftistHeap is represented by the multiset it holds (C29 proves that for integer contents), with the constructor's failure on fewer than two values. Two refuted theorems characterise all remaining graphs."
  },
  {
   "property": "C84",
   "status": "proved",
   "theorems": [
    "C84_korman",
    "C84_exact_coloring",
    "C84_korman_empty",
    "C84_korman_edgeless_refuted",
    "C84_korman_isolated_refuted"
   ],
   "note": "The main loop is a step function over the local variables (s and s_color may be unbound); the invariant says which colourings the search still has to meet, up to a permutation of the colours, and the measure reads the colours as digits. Guarded by 'every vertex has a neighbour'; C84_korman_edgeless_refuted and C84_korman_isolated_refuted show that the guard is needed."
  },
  {
   "property": "C85",
   "status": "proved",
   "theorems": [
    "C85_distance_network_first",
    "C85_distance_network",
    "C85_unreachable_refuted",
    "C85_single_terminal_refuted"
   ],
   "note": "The distance network has edges of weight inf between terminals that are not connected; Prim's algorithm on it is shown to be Prim's algorithm on the finite edges. C85_unreachable_refuted: with a terminal out of reach of the first one there is no Steiner tree, and the code returns a tree without it."
  },
  {
   "property": "C86",
   "status": "proved",
   "theorems": [
    "C86_minimum_cost_paths",
    "C86_disconnected",
    "C86_unreachable_refuted",
    "C86_zero_weight_refuted",
    "C86_few_terminals_refuted"
   ],
   "note": "C86_zero_weight_refuted: with weight zero allowed, the loop diverges for every fuel on a path of three vertices."
  },
  {
   "property": "C87",
   "status": "proved",
   "theorems": [
    "C87_solve",
    "C87_many_letters",
    "C87_empty_word"
   ],
   "note": "C87_solve: all yields, no duplicates, iff a solution; C87_many_letters and C87_empty_word for the boundary cases. Letters are integers in the model."
  },
  {
   "property": "C88",
   "status": "proved",
   "theorems": [
    "C88_solve",
    "C88_unique",
    "C88_too_long"
   ],
   "note": "C88_solve rests on C43_algorithmx (every exact cover is yielded) and on the correspondence between exact covers of the 324 constraints and completions, proved in both directions."
  },
  {
   "property": "C89",
   "status": "proved",
   "theorems": [
    "C89_maxis",
    "C89_maxis_no_limit",
    "C89_maxis_small",
    "C89_maxis_empty",
    "C89_maxis_edgeless_refuted",
    "C89_maxis_edgeless_small_refuted"
   ],
   "note": "Guarded theorem plus the two refutations for graphs without edges; verbose output is not modelled."
  },
  {
   "property": "C90",
   "status": "proved",
   "theorems": [
    "C90_adjacency",
    "C90_degree",
    "C90_laplacian",
    "C90_empty",
    "C90_density",
    "C90_density_complement",
    "C90_density_error"
   ],
   "note": "Density as the double returned, for at most 94906266 vertices."
  },
  {
   "property": "C91",
   "status": "proved",
   "theorems": [
    "C91_miller_rabin",
    "C91_miller_rabin_half",
    "C91_solovay_strassen_half",
    "C91_miller_rabin_draw",
    "C91_solovay_strassen_draw",
    "C91_miller_rabin_quarter",
    "C91_miller_rabin_quarter_refuted",
    "C91_miller_rabin_draw_quarter",
    "C91_miller_rabin_rounds",
    "C91_deterministic",
    "C91_deterministic_prime",
    "C91_deterministic_witness",
    "C91_deterministic_small"
   ],
   "note": "The value int(2*log(n)**2) is an arbitrary function. That it always bounds a witness (the extended Riemann hypothesis) is not claimed."
  },
  {
   "property": "C92",
   "status": "proved",
   "theorems": [
    "C92_content",
    "C92_primitive_part",
    "C92_primitive_part_refuted",
    "C92_primitive_part_zero",
    "C92_gcd_sound",
    "C92_gcd_multiple",
    "C92_gcd_linear",
    "C92_gcd_quadratic",
    "C92_gcd_quadratic_fails",
    "C92_gcd_zero",
    "C92_gcd_ends",
    "C92_gcd_refuted",
    "C92_gcd_wrong_refuted"
   ],
   "note": "When the degrees differ by one, h is a float from the second round on; what these rounds do is arbitrary (Polynomial([d]) or an exception)."
  },
  {
   "property": "C93",
   "status": "proved",
   "theorems": [
    "C93_cost",
    "C93_two_opt",
    "C93_two_opt_ends",
    "C93_child",
    "C93_mgkrec",
    "C93_select",
    "C93_solve",
    "C93_solve_ends",
    "C93_errors",
    "C93_solve_refuted"
   ],
   "note": "Floats are represented by integers in the same order, with arbitrary addition and subtraction; the exact theorems instantiate them with those of Z. Distances are an arbitrary symmetric function (not computed from coordinates). The printing is not modelled."
  },
  {
   "property": "C94",
   "status": "proved",
   "theorems": [
    "C94_gabow",
    "C94_gabow_first",
    "C94_gabow_ends",
    "C94_gabow_empty",
    "C94_gabow_disconnected",
    "C94_gabow_refuted"
   ],
   "note": "heapq is any pair of functions meeting the contract `heapq` of Gab_Spec.v: entries are kept, the popped one has the least weight, TypeError is raised only when two entries cannot be compared. prim, breadth_first_search_tree and NamedUnionFind are the models of C63, C56 and C31."
  },
  {
   "property": "C95",
   "status": "proved",
   "theorems": [
    "C95_latin_count",
    "C95_latin_solutions"
   ],
   "note": "A Latin square is a list of n rows, rows and columns being permutations of 0..n-1. The cover search is the model of C42."
  },
  {
   "property": "C96",
   "status": "proved",
   "theorems": [
    "C96_polynomial_formula",
    "C96_polynomial_injective",
    "C96_matrix_table",
    "C96_matrix_injective",
    "C96_pell_injective",
    "C96_sizes_injective",
    "C96_quadratic_refuted",
    "C96_quadratic_injective",
    "C96_polynomial_items"
   ],
   "note": "str(int) is the decimal conversion of the standard library. Refuted for QuadraticIrrational with q = 1 and p != 0."
  },
  {
   "property": "C97",
   "status": "proved",
   "theorems": [
    "C97_lines",
    "C97_load_graph",
    "C97_load_dimacs",
    "C97_numerals",
    "C97_int_str",
    "C97_round_trip",
    "C97_dimacs_refuted",
    "C97_round_trip_any",
    "C97_isolated_refuted"
   ],
   "note": "Files are texts of 8-bit characters; opening does not fail. Refuted for isolated vertices."
  },
  {
   "property": "C98",
   "status": "proved",
   "theorems": [
    "C98_odd_graph",
    "C98_degree",
    "C98_all",
    "C98_error",
    "C98_docstring_refuted",
    "C98_six_refuted",
    "C98_large_refuted"
   ],
   "note": "Refuted: the docstring, and k = 6."
  },
  {
   "property": "C99",
   "status": "proved",
   "theorems": [
    "C99_values",
    "C99_no_delete_row",
    "C99_delete_row_refuted",
    "C99_minor_refuted"
   ],
   "note": "Refinement between a model with a store of rows and the value model of C52/C53. Refuted for delete_row followed by a change."
  },
  {
   "property": "C100",
   "status": "proved",
   "theorems": [
    "C100_matrix",
    "C100_order",
    "C100_depth_first",
    "C100_single_point_refuted",
    "C100_no_points",
    "C100_whole_numbers"
   ],
   "note": "Arithmetic and order are parameters of the model; nan and OverflowError are not modelled. Refuted for a single point."
  },
  {
   "property": "C101",
   "status": "proved",
   "theorems": [
    "C101_values",
    "C101_others"
   ],
   "note": "Refinement between a model with a store of dictionaries and the value model of Graph_Model, which all theorems about graphs use."
  },
  {
   "property": "C102",
   "status": "proved",
   "theorems": [
    "C102_no_mixed_sums",
    "C102_scalar",
    "C102_scalar_error",
    "C102_sum_refuted",
    "C102_sum_start",
    "C102_sums_laws",
    "C102_product_laws",
    "C102_rmul",
    "C102_rmul_refuted"
   ],
   "note": "The laws follow from the entry formulas of C52. The docstring of __rmul__ and the use of sum() without a start value are refuted."
  },
  {
   "property": "C103",
   "status": "proved",
   "theorems": [
    "C103_add_laws",
    "C103_mul_laws",
    "C103_degree",
    "C103_no_zero_divisors",
    "C103_quo_rem_number",
    "C103_pseudo_quo_rem_number",
    "C103_division",
    "C103_cancel",
    "C103_pow_laws",
    "C103_sum"
   ],
   "note": "Follows from the coefficient formulas of C47-C50 and associativity of convolution."
  },
  {
   "property": "C104",
   "status": "proved",
   "theorems": [
    "C104_dijkstra",
    "C104_dijkstra_iterator",
    "C104_prim",
    "C104_prim_error",
    "C104_kruskal",
    "C104_chartres"
   ],
   "note": "The heaps of gabow are parameters of its model (C94)."
  },
  {
   "property": "C105",
   "status": "proved",
   "theorems": [
    "C105_expressions",
    "C105_coefficients",
    "C105_equality",
    "C105_sub_number_refuted",
    "C105_zero_power_refuted",
    "C105_quo_rem_number",
    "C105_pseudo_quo_rem_number"
   ],
   "note": "Coefficients are integers; other coefficient types and negative exponents are not modelled."
  }
 ]
}