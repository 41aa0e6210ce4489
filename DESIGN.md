# Formal model of siegelzero/rosemary in Rocq

## Approach

* Python integers are `Z`; lists are Coq `list`s; dictionaries are association lists in
  insertion order; sets are duplicate-free lists whose iteration order is a universally
  quantified parameter wherever it can influence the result.
* Every function returns an `outcome`: `Ret v`, `Raise e` (a Python exception) or `Diverge`
  (the fuel of a loop was exhausted).  A theorem of the form `f x = Ret v` therefore also states
  termination and absence of exceptions.
* `while` loops are run by `Base.wl`, a loop combinator with doubling fuel (`wl n` performs up
  to `2^n` steps).  The model functions embed an adequate amount of fuel; theorems about
  functions contain no fuel.
* Floating point, random draws and calls to Python built-ins whose result is not determined are
  parameters: universally quantified, with the property they are used under spelled out in the
  theorem (for instance "`isqrt_float n` is within one of the square root").
* Where the program violates its documented contract, the theorem proved is the exact guarded
  statement and, next to it, a theorem with suffix `_refuted` exhibits the failing input in the model.

Each area `X` has `X_Model.v` (definitions, each with a citation of the Python source), possibly
`X_Spec.v` (independent specification), `X_Proofs.v` (lemmas) and `X_Props.v` (the theorems
listed in `MANIFEST.json`, `Print Assumptions` for each and non-vacuity examples).

## Plan per property

| id | what is modelled | how it is proved |
|----|------------------|------------------|
| C01 | gcd, gcd_list, ext_gcd, lcm, lcm_list | loop invariants; spec is `Z.gcd`, `Z.lcm` |
| C02 | power_mod | binary exponentiation invariant |
| C03 | inverse_mod | from C01 |
| C04 | integer_sqrt, integer_nth_root | Newton/Halley: AM-GM inequality, decreasing measure |
| C05 | integer_log | invariant of the doubling search |
| C06 | chinese, crt_preconditioning_data, chinese_preconditioned | fold invariant; uniqueness of CRT |
| C07 | valuation | invariant n = p^k * m |
| C08 | jacobi_symbol | reciprocity proved in Coq, loop invariant |
| C09 | bit_count | structural |
| C10 | linear_congruence | arithmetic |
| C11-C13 | zn_arithmetic | group theory (mathcomp) / Hensel lifting |
| C14 | prime sieves | array invariants, spec `Znumtheory.prime` |
| C15 | miller_rabin, solovay_strassen, is_probable_prime | Fermat, square roots of 1 modulo p |
| C16, C17 | is_prime, next_prime, prime table | verified sieve run by the kernel's VM on the literal table |
| C18-C22 | factorization | multiset/product invariants, random choices as oracle |
| C23-C25 | arithmetic functions | multiplicativity; sieve invariants |
| C26 | prime counting | inclusion-exclusion recurrence |
| C27 | Pell, convergents | algebraic invariants |
| C28 | BIT sieve | Fenwick tree invariant |
| C29-C31 | heaps, union-find | abstraction to multisets/partitions, invariants over histories |
| C32 | cached_function | invariant: table is a sub-graph of the function |
| C33-C37 | generators | successor function of the lexicographic order; exactness |
| C38-C41 | counting functions | recurrences against explicit counting specifications |
| C42, C43 | exact cover | exactness by induction on the uncovered bits / sets |
| C44-C46 | knapsack, TSP | optimality over all selections / tours; farthest_insertion follows its rule, an inductive definition in `TSP_Spec2.v` |
| C47-C53 | polynomials, power series, matrices | coefficient functions, ring identities; mathcomp determinants |
| C54, C55 | Graph class | symmetric adjacency invariant over histories |
| C56-C58 | traversal, components | reachability, distance by walks |
| C59-C62 | shortest paths | distance = minimum over walks |
| C63 | spanning trees | cut property |
| C64, C65 | cliques | exactness over vertex subsets |
| C66, C67 | colourings | properness, optimality; dsatur follows its rule, an inductive definition in `Color_Spec2.v` |
| C68 | independent sets | independence, maximality |
| C69 | Hamiltonian paths | exact enumeration |
| C70 | graphic sequences | Havel-Hakimi exchange argument; the theorem of Erdos and Gallai in both directions (double counting; Choudum's induction) and the handshake lemma, so that the second test is characterised exactly |
| C71 | prime_range, sieve_interval | segmented sieve invariant on top of C14 |
| C72 | is_square, is_power, is_perfect_power, is_factorial | from roots (C04), valuations and factorizations |
| C73 | knapsack branch and bound with binary64 bounds | invariant: the incumbent, or the optimum is still in the stack; error analysis of the double bound |
| C74 | named graph constructors | adjacency read off the comprehension; petersen_graph by a labelling with the 2-element subsets |
| C75 | cfrac | continued fraction invariant A^2 = (-1)^k Q mod n; linear algebra over GF(2) |
| C76 | sums of arithmetic functions | Dirichlet hyperbola identities |
| C77 | arithmetic progressions | tables indexed by last pairs |
| C78 | maximize_divisors, bernoulli_list, largest_divisor | exhaustive search argument; recurrence |
| C79 | partition numbers, eta powers | pentagonal number theorem proved in Coq |
| C80 | necklaces | Burnside's lemma proved in Coq |
| C81, C82 | preimages of the totient | structure of phi over factorizations; exactness |
| C83 | cheriton_tarjan | cut property over the queue of trees; simulation by the leftist trees of heaps.py |
| C84 | korman, exact_coloring | search invariant on partial colourings |
| C85, C86 | Steiner heuristics | terminal-distance tree (infinite weights between unconnected terminals: Prim refines Prim on the finite edges), tour shortcut, factor two |
| C87 | alphametics.solve | search invariant over partial assignments; linearity of the value of a word |
| C88 | exact_cover.parse/sudoku_vectors/sudoku_dlx | exact covers of the 324 constraints ↔ completions, both ways (pigeonhole); then C43 |
| C89 | coloring.maxis | loop invariant: the classes and the rest partition the vertices; C68 and C84 for the parts |
| C90 | Graph.adjacency_matrix/degree_matrix/laplacian_matrix/density | fold invariants for the matrix updates; exchange of sums; handshake for the complement. The density is the double that Python returns: relative error at most 2^-53, for graphs with at most 94906266 vertices |
| C91 | primality.miller_rabin/solovay_strassen/miller_rabin_deterministic | a base that maps liars to non-liars (square factor, or two coprime factors and the Chinese remainder theorem), so the liars are at most half of the units; for miller_rabin four disjoint translates of the liars (powers of 1 + n/p for a prime power, -1 glued with 1 for three coprime factors, the same with a non-Fermat number for two), so at most a quarter, except for n = 9 |
| C92 | PolyZZ.content/primitive_part, Polynomial.gcd | Gauss's lemma by induction on the coefficient lists; divisors of the pseudo-remainders; degrees of divisors. The rounds with a floating-point h are an arbitrary parameter |
| C93 | TravelingSalesman.cost/two_opt/select/mgkrec/solve | invariant of the while loop: a tour, and no gain left at the positions below i; the tour length times n+1 minus i decreases in exact arithmetic; the child is a concatenation of two parts; the population is sorted, half of it real. Floats are integers in the same order with arbitrary addition and subtraction |
| C94 | spanning_trees.gabow | the search for an exchange: the union-find classes are the subtrees contracted so far, an edge of weight w offers itself to exactly the uncontracted tree edges of its cycle; symmetric exchange of spanning trees gives the second best tree of a class; the heap entries partition the spanning trees into classes (edges included, edges excluded), each with one tree generated, the lightest. The heap is any implementation meeting a contract; on a graph that is not connected the search climbs only inside the component of the root until an edge outside is met |
| C95 | exact_cover.latin_square_ints | the three bits of one integer (column has symbol, row has symbol, cell filled); a bijection between the exact covers and the Latin squares, over the model of C42 |
| C96 | the methods __repr__ of Polynomial, Matrix, QuadraticIrrational, PellEquation, Graph and LeftistHeap; Polynomial.__getitem__ and __ne__ | texts are lists of characters, numerals those of Coq's decimal library; a grammar of formulas with values; the text is read up to the first character that is not part of a numeral, which gives injectivity |
| C97 | load_graph, load_dimacs_graph, with the reading of lines, split(' ') and int() | a file is a text; lines, words and numerals are specified by inductive relations (grammar), the model reads character by character; both directions are proved, so that the error cases are exactly the texts outside the grammar; the graph by induction over the lines with C54 |
| C98 | odd_graph, with add_vertex, add_edge and vertices() on vertices that are texts | dictionaries with texts as keys; itertools.combinations as selections in their order; vertices and adjacency by induction over the loops for every k, the translation to sets for k <= 5 where each number is one character; counting of selections by Pascal's triangle |
| C99 | the class Matrix with rows in a store: constructor, +, -, *, negation, delete_col, delete_row, assignment to entries, determinant in place | a store of rows, objects with lists of positions and the attributes nrows and ncols; simulation (refinement) between this model and the value model of C52/C53 by induction over the program, with the invariant that objects of different families have disjoint rows |
| C100 | euclidean_distance_matrix, cost and depth_first for any type of numbers with given arithmetic and order | loop invariants for the two nested loops over the matrix; induction over the depth of the search as for C46; for whole distances the matrix is one of C46 |
| C101 | the class Graph with the dictionaries of neighbours in a store: constructor, copy, changes, subgraphs, complement, dictionaries G[u] kept by the program | simulation (refinement) between this model and the value model by induction over the program, with the invariant that no two vertices of any graphs share a dictionary |
| C102 | the operators + - * of Matrix with numbers and matrices on either side, sum(), and __rmul__ called on matrices | entry formulas of C52, extensionality of matrices, exchange of sums |
| C103 | the operators of Polynomial with polynomials and numbers, sum(), quo_rem and pseudo_quo_rem by a number | coefficient formulas of C50, extensionality of normal coefficient lists, algebra of convolutions |
| C104 | dijkstra, dijkstra_iterator, prim, kruskal, chartres with the heap as a parameter | the least entry is unique, as tuples are linearly ordered; simulation: the list of the heap stays a permutation of the list of the other model. Instance: CPython's heapq, verified for every linear order |
| C105 | the operators of Polynomial with Python's dispatch (reflected methods, class and variable of the result), ==, !=, quo_rem and pseudo_quo_rem by a number | induction on the expression, from the theorems on the single operations (C48 to C50); an integer polynomial that vanishes at all x >= 1 is zero |

## Trusted base

* The kernel of Coq 8.16.1 (including its bytecode VM, used by `vm_compute` for the literal prime
  table of C16/C17, for finite side conditions and for the worked examples), `coqc`, and the
  compiled standard library and mathcomp.  mathcomp is used in `Mat_MC.v` (determinants) and in
  `Bertrand.v`, `Bertrand2.v` (Bertrand's postulate); it introduces no axiom.
* Axioms: **none**.  `Print Assumptions` answers "Closed under the global context" for each theorem
  listed in `MANIFEST.json`; every `*_Props.v` prints it for the theorems it contains.
* No functors, module types, `Declare Module`, section-less variables, plugins, or switched off
  kernel checks.
* The specifications (`*_Spec.v`, and the notions of the standard library used in the theorem
  statements: `Z.gcd`, `prime`, `Permutation`, `NoDup`, `StronglySorted`, ...).
* The reading of Python in `Base.v`, `Py.v`, `Loop.v`, `Dict.v` and `Gen.v`: unbounded integers, floor division
  and modulus, negative list indices, slices, insertion-ordered dictionaries, generators as the
  list of yielded values followed by an outcome, exceptions as values.
* The transcription itself: each definition in `*_Model.v` cites the file and lines it follows and
  says where it simplifies.  The code was read, not run.

### What the numeric models assume

* `int(n ** 0.5)` (core.py, sieves, Lehman, Fermat ...): the model is the exact integer part of the
  square root rounded to 53 bits; theorems give the range (usually n < 2^52) in which this agrees with
  the integer root, `_refuted` theorems give inputs beyond the range where results are wrong.
* Doubles in the knapsack bound (C73) and in the partition formulas (C79) are modelled by round-to-nearest on
  53-bit significands without overflow or infinities (`Double_Model.v`, `Pent_Model.v`).
* Other float expressions (the temperatures of the knapsack annealing, euclidean lengths, Pollard-type random draws, the bound of
  pell_big) are universally quantified oracles; a theorem then holds for all their values.
* `float('inf')` as a distance is `option Z` (`None` the largest value).  Edge weights are integers.
* Random choices, iteration order of sets and `hash` orders are universally quantified functions.
* Recursion depth, memory and `OverflowError` of the interpreter are not modelled.

## What is modelled and what is not

`tools/coverage.py` compares the citations in the model with the functions defined in /repo.


Covered: all of core, zn_arithmetic, factorization, arithmetic functions, their inverses and sums, prime
counting, Pell equations, enumeration, generation, knapsack, power series, polynomial algorithms, union-find,
heaps, BIT sieve, traversal, connectivity, paths, cliques, independent sets, degree sequences, Hamiltonian paths, Steiner trees,
the memoizing decorator, and most of the classes Graph, Matrix and Polynomial.

Not modelled:

* `ExactCover.__repr__` (a constant text); the opening and decoding of files (the readers of C97 start from the text of the file);
* the stubs of classification.py whose body is `pass`;
* anything else `tools/coverage.py` lists.  `algorithm_dlx` (the same code as `algorithmx`), `ExactCover.__init__` and
  `hamiltonian_paths` are covered by definitions cited at another line range.

Simplifications that matter when reading a theorem are stated in the comment of the definition: sets as
duplicate-free lists with an order oracle; heaps as lists of their contents (C104 and `C83_leftist_heaps` show that the
layout of the heap is not observable);
vertices of graphs as integers; edge weights as finite integers.

## Where the code does not do what it promises

Each of these is a theorem about the model, next to the guarded theorem that does hold.

* `C02_power_mod_refuted`: power_mod(a, 0, m) is 0 when m divides a; it should be 1.
* `C04_integer_sqrt_refuted`: integer_sqrt(a^2 - 1) is one too large for every 2^26 < a <= 2^30 (rounding of the float root); `C04_integer_sqrt_exact_53` gives the range where it is exact.
* `C07_valuation_refuted`: for n < 0 the result is 0 whenever p divides n.
* `C12_multiplicative_order_refuted`: For the modulus 1 every element has order 1, but the result is None: a power is compared with 1, not with 1 % n.
* `C13_sqrts_mod_n_refuted`: Modulo 1 the only residue, 0, is a square root; the code raises instead.
* `C13_quadratic_congruence_refuted`: With a = 0 and n >= 2 the splitting loop never ends, whatever the number of rounds.
* `C15_lucas_lehmer_two_refuted`: The docstring asks for an odd prime: the even prime is not handled.
* `C18_factor_power_detection_negative_refuted`: factoring a negative number with power detection raises ValueError.
* `C18_factor_refuted`: Primality of the bases does fail beyond: the product 10670053 * 32010157.
* `C19_divisor_pairs_1_refuted`: divisor_pairs(1) raises IndexError.
* `C19_unitary_divisors_1_refuted`: unitary_divisors(1) is [1, 1].
* `C21_fermat_refuted`: Between 2^52 and 2^60 the rounded square root can be one too large, and the search then skips the closest pair: the product of any twin primes of this size is returned as if it had no factor.
* `C21_lehman_refuted`: It does not decide primality: the search for a given multiplier stops at once when floor(sqrt(4kn)) already has the wanted residue and its square is below 4kn.
* `C26_lehmer_refuted`: lehmer misses primes when floor roots are inexact: the answer is too small.
* `C26_lehmer_powers_refuted`: lehmer is wrong for n = p^4 - 1, for every prime p >= 37.
* `C26_lmo_bit_cubes_refuted`: The exponent 0.33333333333333 is less than 1/3, and the integer part of the power of a cube p^3 is p - 1. The answer is then too large by one for every odd prime p.
* `C26_lmo_bit_small_refuted`: Below 8 it raises IndexError.
* `C26_prime_sum_refuted`: At zero the sum should be 0.
* `C26_prime_count_refuted`: the table maps the key 1 to 1, and there is no prime <= 1.
* `C26_pi_table_small_refuted`: With no primes the loop variable is unbound.
* `C27_square_root_float_refuted`: Where integer_sqrt is off by one the expansion is not that of a continued fraction: for d = a^2 - 1 with 2^26 < a <= 2^30 the quotients are a, -2a, 2a, -2a, ....
* `C27_resolvent_solution_refuted`: PellEquation accepts the same D, and its method resolvent_solution always fails.
* `C27_minimal_square_refuted`: For a square N > 1 the class of (sqrt N, 0) is lost.
* `C27_pell_small_common_factor_refuted`: pell_small yields only solutions in coprime integers: for N = f^2 > 1 the pair (f u, f v) never comes.
* `C27_pell_small_guard_refuted`: The guard of pell_small is D^2 <= N where its message says N < sqrt D: x^2 - 7 y^2 = 9 passes it, and the solution (4, 1) never comes.
* `C27_pell_small_minimal_square_refuted`: _pell_small_minimal_positive_solutions stops before the first solution for 1: for N = 1 its list is empty, and for N = f^2 it lacks (f u, f v).
* `C27_quadratic_negative_refuted`: The three hypotheses are needed. 1. Negative q: the first partial quotient of (-20 + sqrt 2)/(-1) = 20 - sqrt 2 = 18.58... is 18, the code gives 19.
* `C27_quadratic_separated_refuted`: 2. No integer between the conjugates: a later partial quotient is negative; the third value of convergents() for (-18 + sqrt 2)/7 = -2.36... is above it instead of below.
* `C27_quadratic_scaled_refuted`: q not dividing d - p^2: for (10 + sqrt 7)/4 the code finds the wrong period [3, 6].
* `C30_increase_refuted`: Without the restriction the heap can return a pair that is not minimal: raising the key of the root leaves it at the root.
* `C30_duplicate_refuted`: Inserting a value twice makes a later delete_min raise KeyError.
* `C31_arbitrary_union_refuted`: Without that discipline the claim fails: [union] only looks at the direct parents. 1, 2, 3, 4 with union(1,2), union(2,3), union(1,4): 2 and 3 are joined but find answers 4 and 3; `C31_arbitrary_union_cycle_refuted`: after union(a, b), union(b, c), union(c, a) find never returns for a, b and c.
* `C31_named_self_union_refuted`: union(u, u, w) makes a root its own father: find then never returns.
* `C33_out_of_range_refuted`: For t > n the first list yielded is not a subset of {0, ..., n - 1} (it contains t - 1 >= n), instead of nothing being yielded.
* `C35_phillips_refuted`: On other inputs the claim fails: duplicates for two equal elements, IndexError for an empty list, and IndexError after the only arrangement of m >= 3 equal elements.
* `C36_rvariations_refuted`: The empty multiset has one 0-variation, but the generator raises after yielding it.
* `C37_refuted`: integer_partitions: distinct parts may repeat, too many parts yield the empty list, one part ends in IndexError.
* `C38_binomial_out_of_range_refuted`: Outside that range the answer should be 0, but it is 1.
* `C39_stirling_refuted`: {1, ..., m} has 2^(m-1) - 1 partitions into two blocks; the code answers 2^(m-2) - 1, for every m >= 2.
* `C39_stirling_raises_refuted`: for m, n >= 3 stirling_number2(m, n) raises KeyError.
* `C42_domino_tilings_refuted`: C42: for n = 1 there are no vectors, and the count is 1 although a single square cannot be tiled.
* `C45_annealing_negative_refuted`: an item of value -10^6 or less may be taken and trying to drop it again raises OverflowError in math.exp; `C45_annealing_any_values`: otherwise the result is feasible.
* `C46_two_opt_asymmetric_refuted`: Without symmetry the reported cost is wrong, even negative, and the tour can be dearer than the one it started from; `C46_two_opt_asymmetric_endless_refuted`: with asymmetric distances two_opt may also never end.
* `C46_steepest_ascent_given_matrix_refuted`: When a matrix is passed the starting tour is still priced with the euclidean distances, so the reported cost is wrong: the points (0,0), (3,0), (0,4) and a matrix in which every distance is 7.
* `C46_annealing_zero_refuted`: simulated_annealing_two_opt raises ValueError in math.log when random.random() returns 0.0 and the exchange is no improvement; `C46_annealing_two_points_refuted`: with two points it always raises.  The test `math.log(r) < diff/temp` lacks a sign, so every exchange that is no improvement is accepted whatever the temperature; the model says so, and the cooling only bounds the number of draws.
* `C46_random_two_opt_three_points_refuted`: random_two_opt reverses one segment of the path, so permutes it; with at most three points no draw is ever accepted and the call does not return, with four or more some draw is.
* `C47_ps_mult_karatsuba_threshold_refuted`: With the threshold 1 the recursion never ends, however deep it may go.
* `C48_power_jcp_zero_refuted`: The zero polynomial has no powers: IndexError.
* `C48_ps_power_zero_refuted`: every series without constant term: ZeroDivisionError, whatever the exponent.
* `C49_quo_rem_degree_refuted`: For another leading coefficient the remainder may have the degree of the divisor: m x^2 + x by m x for every m >= 2. `C49_quo_rem_floor` determines the result: its upper coefficients are residues modulo the leading coefficient.
* `C50_sub_number_refuted`: p - number adds the number: the value at every x is p(x) + c.
* `C51_ps_invert_refuted`: for every series with another constant term: 0 raises ZeroDivisionError, and with |a0| >= 2 the floor division hides that there is no inverse over the integers.
* `C52_product_refuted`: the list for the result of an r by k times a k by c product has c rows of length r, so unless r = c the product is an IndexError.
* `C52_add_shapes_refuted`: sums and differences of matrices of different shapes are not rejected; a larger second matrix is cut off.
* `C53_determinant_refuted`: for every square matrix in which the only non-zero entry of the first column is in the last row, 0 is returned, whatever the determinant; `C53_determinant_2_refuted`: so for every [[0, b], [c, d]] with b, c != 0.
* `C53_zero_refuted`: for the matrix [[0]] an UnboundLocalError is raised.
* `C53_pure_refuted`: the matrix is overwritten, and a second call gives another number, for every [[a, b], [c, d]] with a != 0 and ad - bc != d.
* `C57_max_depth_refuted`: With max_depth a vertex within that distance may be missed.
* `C61_negative_loop_refuted`: a loop of negative weight is not noticed, in any graph (`C61_loops`: the distances are those without the loops).
* `C65_maximum_weight_clique_negative_refuted`: With a negative weight the answer can be wrong: the edge 1 - 2 with weights a and b < 0 < a + b gives the clique [1, 2] of weight a + b, less than that of [1]. `C65_maximum_weight_clique_any_weights` says what is left: the answer is still a clique with its own weight.
* `C67_branch_and_bound_complete_refuted`: On a complete graph no vertex is coloured: the classes are empty.
* `C68_maximum_independent_set_empty_refuted`: The empty graph has the empty set for a maximum independent set, but the function raises.
* `C68_culberson_maximal_refuted`: [culberson] may return a set that is not maximal: with the edge 1 - 2 and the vertex 3, it leaves out 3.
* `C69_inclusion_exclusion_one_refuted`: A single vertex is a path, which number_of_hamiltonian_paths5 counts only when it has a loop.
* `C69_inclusion_exclusion_con_refuted`: On the path 1 - 2 - 3 number_of_hamiltonian_paths5_con returns 4; there are two.
* `C70_erdos_gallai_parity_refuted`: the Erdos-Gallai test does not check the parity of the sum: it accepts 2m + 1 ones for every m >= 1.
* `C70_erdos_gallai_negative_refuted`: nor does it reject negative entries: it accepts every single negative number. With both conditions added it is exact (`C70_erdos_gallai_exact`).
* `C71_prime_range_small_refuted`: prime_range(a, b) includes b itself when it is a prime <= 10^7.
* `C71_prime_range_large_refuted`: for b > 10^7 prime_range misses the prime a when a <= isqrt(b).
* `C72_is_square_zero_refuted`: Used as a test, [if is_square(n)], it is right for every n but 0.
* `C72_is_square_factorization_of_one_refuted`: The same for the factorization of a number greater than 1; the empty factorization (of 1) raises, and a factorization with a sign gives False.
* `C72_is_power_one_refuted`: 1 == 1**2 but is_power(1) is False; with an exponent it is found.
* `C73_large_values_refuted`: C73: for larger values the rounding of the bound loses the optimum: the selection of the second item is worth 2^53 + 1. `C73_feasible`: up to a total value of 2^500 the answer is still a selection that fits, with its value.
* `C74_complete_graph_refuted`: C74: complete_graph(1) has no vertices at all.
* `C75_cfrac_square_refuted`: Squares without small factors are not handled: the multiplier is 1 and the first pair divides by zero.
* `C76_sigma_sum_refuted`: Beyond the exact range of the floating-point root [sigma_sum] is wrong one below every square: it is short by [a] at [a^2 - 1], 2^26 < a <= 2^52.
* `C77_longest_ap_refuted`: "All are returned" fails for every list of two or more elements with no three in progression: exactly the pairs ending in the last element are left out (`C77_longest_ap_pairs`).
* `C78_bernoulli_list_zero_refuted`: For [n = 0], allowed by the documentation, there is no [values[1]].
* `C78_largest_divisor_refuted`: largest_divisor(n, b), "the largest divisor of n not exceeding b": right when [b] divides [n]; otherwise it raises, since the package it takes [factor] from does not have it.
* `C79_partition_list_zero_refuted`: For n = 0 there is no entry 1 to initialise.
* `C79_rth_power_refuted`: the r-th power of eta raises in every other case, because it asks for partition_number(0).
* `C80_weights_refuted`: The documented argument [weights] cannot be used: every call with colour multiplicities fails.
* `C82_raises_refuted`: inverse_phi(n) raises RuntimeError for every multiple n of 8, although 2^k is the totient of 2^(k+1) (the dictionary grows while its keys are traversed; `C82_raises_iff` says exactly when).
* `C82_one_refuted`: 1 is missing from inverse_phi(1).
* `C83_disconnected_refuted`: It does not return a forest on the other graphs, against its documentation.
* `C83_leaf_refuted`: And one vertex with fewer than two neighbours is enough to make it fail.
* `C84_korman_edgeless_refuted`: Without the guard the claim is false: with two or more vertices and no edge the next vertex is never bound.
* `C84_korman_isolated_refuted`: And the search may never end: a path of three vertices and a fourth vertex without neighbours.
* `C85_unreachable_refuted`: C85: with a terminal out of reach of the first one there is no Steiner tree, but the call returns a tree without that terminal.
* `C85_single_terminal_refuted`: C85: a single terminal, which is a tree by itself, is not handled.
* `C86_unreachable_refuted`: C86: with a terminal out of reach of the first one the loop never ends, or UnboundLocalError is raised when the first is cut off from all others.
* `C86_zero_weight_refuted`: C86: with an edge of weight zero the loop may never end: a terminal that lies on a path to another terminal enters the tree but stays in the set of terminals to do.
* `C86_few_terminals_refuted`: C86: a single terminal, and none.
* `C89_maxis_edgeless_refuted`: a graph without edges and with more vertices than both limits: the default search finds only the empty set, and the loop never ends.
* `C89_maxis_edgeless_small_refuted`: two or more vertices, at most color_limit, and no edge: the exact colouring of the rest raises UnboundLocalError.
* `C92_primitive_part_refuted`: the primitive part of a negative constant is -1, not a polynomial with a positive leading coefficient.
* `C92_gcd_refuted`, `C92_gcd_quadratic_fails`: from the second round on v is a Polynomial without primitive_part, so gcd raises AttributeError instead of returning a nontrivial common divisor.
* `C92_gcd_wrong_refuted`: dd is never updated, so the divisions by g*h**dd are not exact and gcd can return 1 for two polynomials with a common factor.
* `C93_solve_refuted`: solve assigns list(population[1]), the pair of the second best individual, to Xbest, so after an improvement the result is not a cost and a tour.
* `C91_miller_rabin_quarter_refuted`: the bound of a quarter of the units fails for n = 9 (2 of 6), and only there.
* `C94_gabow_refuted`: after the last tree gabow compares heap entries (inf, None, None, father, ...), and dictionaries cannot be compared: TypeError instead of the end of the iteration.
* `C96_quadratic_refuted`: the text of a QuadraticIrrational with q = 1 and p != 0 shows q where p belongs: 2 + sqrt(3) and 5 + sqrt(3) are both printed as 1 + sqrt(3).
* `C97_dimacs_refuted`: a file with the problem line `p edge 3 1` and one edge gives a graph with two vertices; `C97_isolated_refuted`: every vertex without edges is lost when the edges of a graph are written to a file and loaded (`C97_round_trip_any`: exactly the edges and their ends are kept).
* `C98_docstring_refuted`: for no k from 1 to 5 has odd_graph(k) as many vertices as there are k-subsets of {1, ..., 2k + 1}: odd_graph(2) has 3, not 10; `C98_six_refuted`: '01230' is a vertex of odd_graph(6), and it is not a five-element subset of {0, ..., 10}; `C98_large_refuted`: the same for every k >= 6, and no set with an element above 9 is a vertex.
* `C99_delete_row_refuted`, `C99_minor_refuted`: delete_row shares the rows with the matrix it is applied to, so that every later assignment through the result, or a determinant, changes both.
* `C100_single_point_refuted`: for a single point depth_first returns [inf, []], no tour.
* `C102_rmul_refuted`: A.__rmul__(B) is documented as B*A but computes A*B, which is different whenever the two do not commute.
* `C102_sum_refuted`: sum(l) of matrices without a start value always raises ValueError, because 0 + M does.
* `C105_sub_number_refuted`: polynomial - number adds the number, so the result is right only when the number is 0.
* `C105_zero_power_refuted`: every power of a polynomial that is identically zero is an IndexError.
