{"id": "C01", "title": "Greatest common divisors, Bezout coefficients, least common multiples", "statement": "gcd(a, b) is the non-negative greatest common divisor of a and b for integers of any sign (0 when both are 0); ext_gcd(a, b) returns (x, y, d) with a*x + b*y == d == gcd(a, b); lcm(a, b) is the least common multiple; gcd_list and lcm_list of two or more integers are the gcd/lcm of the whole list. A one-element list is returned unnormalised, and an empty list raises IndexError.", "quantifier": "all pairs of integers of any sign and size, all lists of integers", "why_tests_cant": "the integers are unbounded; a handful of pairs says nothing about sign combinations and loop lengths not tried", "anchors": ["rosemary/number_theory/core.py:gcd", "rosemary/number_theory/core.py:gcd_list", "rosemary/number_theory/core.py:ext_gcd", "rosemary/number_theory/core.py:lcm", "rosemary/number_theory/core.py:lcm_list"]}
{"id": "C02", "title": "Modular exponentiation", "statement": "For a >= 0, k >= 0, m >= 1, power_mod(a, k, m) == a**k mod m, except exactly when k == 0, m > 1 and m divides a, where the result is 0 instead of 1; every other argument combination raises ValueError.", "quantifier": "all integers a, k, m", "why_tests_cant": "unbounded exponents; the deviating inputs form an infinite family that point tests miss", "anchors": ["rosemary/number_theory/core.py:power_mod"]}
{"id": "C03", "title": "Modular inverse", "statement": "inverse_mod(a, m) returns the unique x with 0 <= x < m and a*x congruent to 1 modulo m when m >= 2 and gcd(a, m) == 1, and raises ValueError for all other arguments.", "quantifier": "all integers a, m", "why_tests_cant": "unbounded integers", "anchors": ["rosemary/number_theory/core.py:inverse_mod"]}
{"id": "C04", "title": "Integer roots", "statement": "integer_nth_root(n, m) is the floor of the n-th root of m for all n >= 1, m >= 0 (n != 2), and integer_sqrt(n) is the floor of the square root of every n > 2**60; for n <= 2**60 integer_sqrt uses floating point and is exact up to 2**52 but returns a value that is too large for some n (for example 2**60 - 1).", "quantifier": "all integers n, m", "why_tests_cant": "Newton/Halley iteration has to be shown to terminate and to stop at the floor from every starting value", "anchors": ["rosemary/number_theory/core.py:integer_nth_root", "rosemary/number_theory/core.py:integer_sqrt"]}
{"id": "C05", "title": "Integer logarithm", "statement": "integer_log(b, n) is the largest k with b**k <= n for every b >= 2, n >= 1; other arguments raise ValueError.", "quantifier": "all integers b, n", "why_tests_cant": "unbounded search range", "anchors": ["rosemary/number_theory/core.py:integer_log"]}
{"id": "C06", "title": "Chinese remaindering", "statement": "chinese(congruences) on two or more congruences with pairwise coprime moduli returns the unique common solution in [0, product of moduli); it raises ValueError when some modulus is not coprime to the product of the previous ones; chinese_preconditioned agrees with it. A single congruence is returned as given (unreduced).", "quantifier": "all non-empty lists of (residue, modulus) pairs", "why_tests_cant": "unbounded number and size of congruences", "anchors": ["rosemary/number_theory/core.py:chinese", "rosemary/number_theory/core.py:crt_preconditioning_data", "rosemary/number_theory/core.py:chinese_preconditioned"]}
{"id": "C07", "title": "Valuation", "statement": "valuation(p, n) is the exponent of the largest power of p dividing n for every p >= 2, n >= 1; for n <= 0 it returns 0 whatever the true valuation. For p <= -2 and n >= 1 it is that of -p; for p = 1 or -1, and for n = 0 with a negative p, the call does not end; for p <= -2 and negative multiples n of p it is 1 if n = p and 0 otherwise.", "quantifier": "all integers p and n", "why_tests_cant": "unbounded integers", "anchors": ["rosemary/number_theory/core.py:valuation"]}
{"id": "C08", "title": "Jacobi symbol", "statement": "jacobi_symbol(a, m) raises ValueError exactly when m is even; for odd m >= 1 it equals the product over the prime factorisation of m of the Legendre symbols of a.", "quantifier": "all integers a and all odd m", "why_tests_cant": "relies on quadratic reciprocity at every step of an unbounded loop", "anchors": ["rosemary/number_theory/core.py:jacobi_symbol"]}
{"id": "C09", "title": "Population count", "statement": "bit_count(n) is the number of ones in the binary expansion of |n|.", "quantifier": "all integers n", "why_tests_cant": "unbounded integers", "anchors": ["rosemary/number_theory/core.py:bit_count"]}
{"id": "C10", "title": "Linear congruences", "statement": "linear_congruence(a, b, n) returns exactly the solutions x in [0, n) of a*x congruent to b modulo n, in increasing order without duplicates.", "quantifier": "all integers a, b and n >= 2", "why_tests_cant": "completeness is a statement about every residue", "anchors": ["rosemary/number_theory/zn_arithmetic.py:linear_congruence"]}
{"id": "C11", "title": "Square roots modulo a prime", "statement": "For a prime p, sqrts_mod_p(a, p) returns exactly the residues x in [0, p) with x*x congruent to a modulo p, whatever random non-residue the algorithm draws.", "quantifier": "all primes p, integers a and random draws", "why_tests_cant": "randomised algorithm, all primes", "anchors": ["rosemary/number_theory/zn_arithmetic.py:sqrts_mod_p"]}
{"id": "C12", "title": "Primitive roots, orders and discrete logarithms", "statement": "is_primitive_root(a, n) is True exactly when a generates the units modulo n; multiplicative_order(a, n) is the least k >= 1 with a**k congruent to 1; a value returned by discrete_log(a, b, p) is an exponent e with a**e congruent to b.", "quantifier": "all moduli n >= 2 and residues a coprime to n", "why_tests_cant": "group-theoretic statement about every modulus", "anchors": ["rosemary/number_theory/zn_arithmetic.py:is_primitive_root", "rosemary/number_theory/zn_arithmetic.py:multiplicative_order", "rosemary/number_theory/zn_arithmetic.py:discrete_log"]}
{"id": "C13", "title": "Quadratic congruences and square roots modulo n", "statement": "sqrts_mod_n(a, n) for n >= 2 returns exactly the residues x modulo n with x*x congruent to a, and quadratic_congruence(coefficients, n) exactly the solutions of the quadratic congruence.", "quantifier": "all n >= 2 and all integer coefficients", "why_tests_cant": "composition of lifting and Chinese remaindering over all factorisations", "anchors": ["rosemary/number_theory/zn_arithmetic.py:sqrts_mod_n", "rosemary/number_theory/zn_arithmetic.py:_sqrts_mod_pk", "rosemary/number_theory/zn_arithmetic.py:_quadratic_lift", "rosemary/number_theory/zn_arithmetic.py:quadratic_congruence"]}
{"id": "C14", "title": "Prime sieves list exactly the primes", "statement": "primes(n), eratosthenes1(n), eratosthenes2(n), luo(n), chartres(n) and pritchard-type sieves return the strictly increasing list of exactly the primes <= n.", "quantifier": "all n", "why_tests_cant": "every n changes the loop bounds; off-by-one errors show only at particular n", "anchors": ["rosemary/number_theory/primes/sieves.py:eratosthenes1", "rosemary/number_theory/primes/sieves.py:eratosthenes2", "rosemary/number_theory/primes/sieves.py:luo", "rosemary/number_theory/primes/sieves.py:primes", "rosemary/number_theory/primes/sieves.py:chartres", "rosemary/number_theory/primes/sieves.py:pritchard"]}
{"id": "C15", "title": "Probabilistic primality tests never reject a prime", "statement": "miller_rabin(p, a) and solovay_strassen(p, a) return True for every prime p > 2 and every base a in [1, p - 1]; hence is_probable_prime accepts every prime; acceptance of composites is possible (341550071728321 is accepted by is_probable_prime). lucas_lehmer(p) is exact: for every p >= 3 it returns True if and only if 2^p - 1 is prime.", "quantifier": "all odd primes and all bases; all exponents p >= 3", "why_tests_cant": "infinitely many primes and bases, randomised base choice", "anchors": ["rosemary/number_theory/primes/primality.py:miller_rabin", "rosemary/number_theory/primes/primality.py:solovay_strassen", "rosemary/number_theory/primes/primality.py:is_probable_prime", "rosemary/number_theory/primes/primality.py:lucas_lehmer"]}
{"id": "C16", "title": "Exact primality test and next prime", "statement": "is_prime(n) is True exactly for primes; next_prime(n) is the least prime greater than n for all n >= 1 (for n <= 0 it returns 3 although 2 is the least prime above n).", "quantifier": "all integers n", "why_tests_cant": "unbounded integers", "anchors": ["rosemary/number_theory/primes/primality.py:is_prime", "rosemary/number_theory/primes/primality.py:next_prime"]}
{"id": "C17", "title": "Built-in prime table", "statement": "The shipped prime table contains exactly the primes up to 10**6 in increasing order.", "quantifier": "all integers up to 10**6", "why_tests_cant": "the table has 78498 entries whose completeness every lookup relies on", "anchors": ["rosemary/number_theory/prime_list.py:_PRIME_LIST"]}
{"id": "C18", "title": "Integer factorisation", "statement": "factor(n) for n != 0 returns strictly increasing pairs (p, e), e >= 1, whose product of p**e is n (with a leading (-1, 1) for negative n), for every sequence of random choices made inside; every base passes the probable-prime test, but it need not be prime (341550071728321 is returned as a prime although it is composite).", "quantifier": "all non-zero integers and all random choices", "why_tests_cant": "unbounded integers, randomised sub-algorithms", "anchors": ["rosemary/number_theory/factorization/factorization.py:factor"]}
{"id": "C19", "title": "Divisor enumeration", "statement": "divisors(n) lists exactly the positive divisors of n in increasing order; xdivisors enumerates each exactly once; prime_divisors lists the primes; divisor_pairs(n) lists each pair (d, n/d).", "quantifier": "all n >= 1 and all factorisations", "why_tests_cant": "completeness and uniqueness over all exponent vectors", "anchors": ["rosemary/number_theory/factorization/factorization.py:divisors", "rosemary/number_theory/factorization/factorization.py:xdivisors", "rosemary/number_theory/factorization/factorization.py:prime_divisors", "rosemary/number_theory/factorization/factorization.py:divisor_pairs"]}
{"id": "C20", "title": "Trial division", "statement": "trial_division(n) without bound returns the least prime factor of n for n >= 2.", "quantifier": "all n >= 2", "why_tests_cant": "the mod-30 wheel has to cover all candidates for every n", "anchors": ["rosemary/number_theory/factorization/algorithms.py:trial_division"]}
{"id": "C21", "title": "Factor-finding algorithms return true factors", "statement": "Whatever pollard_rho, pollard_rho_brent, pollard_p_minus_1, fermat and lehman return divides n, and is greater than 1 for lehman, pollard_rho and pollard_rho_brent, which terminate for every random choice. fermat returns the greatest divisor below sqrt(n) of an odd n >= 5, or n exactly when n is a prime or the square of a prime (for n < 2^52 or n > 2^60; in between it can miss the closest pair of factors). lehman returns the least prime factor if its cube is at most n, but may return n for a composite n. pollard_p_minus_1 finds a factor whenever some prime p <> 13 dividing n has p - 1 composed of prime powers up to the limit.", "quantifier": "all n and all random seeds", "why_tests_cant": "randomised, data dependent loops", "anchors": ["rosemary/number_theory/factorization/algorithms.py:pollard_rho", "rosemary/number_theory/factorization/algorithms.py:pollard_rho_brent", "rosemary/number_theory/factorization/algorithms.py:pollard_p_minus_1", "rosemary/number_theory/factorization/algorithms.py:fermat", "rosemary/number_theory/factorization/algorithms.py:lehman"]}
{"id": "C22", "title": "Linear algebra over GF(2) for the continued-fraction factoriser", "statement": "The GF(2) elimination returns a basis of the space of 0-1 vectors that select rows with an even sum in each column, with at least (rows - columns) members.", "quantifier": "all matrices of exponents", "why_tests_cant": "all matrix sizes and ranks", "anchors": ["rosemary/number_theory/factorization/algorithms.py:_z2_gaussian_elimination"]}
{"id": "C23", "title": "Arithmetic functions from a factorisation", "statement": "Given the prime factorisation of n >= 1, euler_phi is the number of residues coprime to n, divisor_tau the number of divisors, divisor_sigma(n, k) the sum of k-th powers of the divisors, moebius_mu the Moebius function and carmichael_lambda the exponent of the unit group.", "quantifier": "all n >= 1", "why_tests_cant": "statements about all factorisations", "anchors": ["rosemary/number_theory/arithmetic_functions/functions.py:euler_phi", "rosemary/number_theory/arithmetic_functions/functions.py:divisor_tau", "rosemary/number_theory/arithmetic_functions/functions.py:divisor_sigma", "rosemary/number_theory/arithmetic_functions/functions.py:moebius_mu", "rosemary/number_theory/arithmetic_functions/functions.py:carmichael_lambda"]}
{"id": "C24", "title": "Sieved tables of arithmetic functions", "statement": "euler_phi_list(n)[k], moebius_list(n)[k], tau_list(n)[k] and sigma_list(n, j)[k] equal the value of the corresponding function at k for every 1 <= k <= n.", "quantifier": "all n >= 1 and all k up to n", "why_tests_cant": "each entry depends on a cascade of in-place updates", "anchors": ["rosemary/number_theory/arithmetic_functions/sieves.py:euler_phi_list", "rosemary/number_theory/arithmetic_functions/sieves.py:moebius_list", "rosemary/number_theory/arithmetic_functions/sieves.py:tau_list", "rosemary/number_theory/arithmetic_functions/sieves.py:sigma_list"]}
{"id": "C25", "title": "Factorials and primorials", "statement": "factorial(n) == n! for every n >= 0 and raises ValueError for n < 0; primorial(n) is the product of the first n primes.", "quantifier": "all n", "why_tests_cant": "binary-splitting recursion for every n", "anchors": ["rosemary/number_theory/arithmetic_functions/functions.py:factorial", "rosemary/number_theory/arithmetic_functions/functions.py:primorial"]}
{"id": "C26", "title": "Counting and summing primes", "statement": "legendre(n), meissel(n), lehmer(n), lmo(n) and lmo_bit(n) return the number of primes <= n; prime_sum(n) and prime_sum2(n) return their sum; prime_count(n) maps every n//i to the number of primes up to it; pi_table(n) returns the primes <= n and the table of counts for 0..n.", "quantifier": "all n", "why_tests_cant": "the sieve identities must hold at every n", "anchors": ["rosemary/number_theory/primes/prime_counting.py:legendre", "rosemary/number_theory/primes/prime_counting.py:meissel", "rosemary/number_theory/primes/prime_counting.py:lehmer", "rosemary/number_theory/primes/prime_counting.py:lmo", "rosemary/number_theory/primes/prime_counting.py:lmo_bit", "rosemary/number_theory/primes/prime_counting.py:prime_sum", "rosemary/number_theory/primes/prime_counting.py:prime_sum2", "rosemary/number_theory/primes/prime_counting.py:prime_count", "rosemary/number_theory/primes/prime_counting.py:pi_table"]}
{"id": "C27", "title": "Pell equations and continued fractions", "statement": "Every pair (x, y) produced by the Pell solvers satisfies x*x - d*y*y == n; convergents computed by convergents() follow the continued-fraction recurrence with determinant (-1)**k; the lists of minimal positive solutions are sorted; for 0 < N*N < D the generator pell_small yields every solution in coprime positive integers and nothing else, and its companion terminates with the solutions whose primitive part is below the fundamental unit.", "quantifier": "all non-square d >= 2 and all n", "why_tests_cant": "unbounded solution families", "anchors": ["rosemary/number_theory/diophantine_equations/pell.py", "rosemary/number_theory/continued_fractions.py:convergents"]}
{"id": "C28", "title": "Counting sieve with prefix sums", "statement": "After any sequence of mark_multiples operations, partial_sum(m) is the number of integers in [1, m] that are still unmarked.", "quantifier": "all sizes, all sequences of operations, all m in range", "why_tests_cant": "histories are unbounded", "anchors": ["rosemary/data_structures/bit_sieve.py:BITSieve", "rosemary/data_structures/bit_sieve.py:BITSieveArray"]}
{"id": "C29", "title": "Leftist heap is a priority queue", "statement": "On a leftist heap built from two or more values, any sequence of insert, merge, delete_min behaves as a multiset: find_min/delete_min return the least element, size is the number of elements. Building a heap from zero or one value raises UnboundLocalError.", "quantifier": "all operation histories", "why_tests_cant": "histories are unbounded; heap shape depends on the whole history", "anchors": ["rosemary/data_structures/heaps.py:LeftistHeap"]}
{"id": "C30", "title": "Pairing heap is a priority queue with decrease-key", "statement": "As long as values are distinct, insert, insert_values, decrease_key (to a key that is not larger), delete_min and list_elements implement a priority queue keyed by value: delete_min returns a pair of least key and removes exactly it, decrease_key changes exactly one key and raises KeyError for a missing value, list_elements lists the contents. A key raised by decrease_key, or a value inserted twice, can make a later answer wrong.", "quantifier": "all operation histories with distinct values", "why_tests_cant": "pointer structure depends on the whole history", "anchors": ["rosemary/data_structures/heaps.py:PairingHeap"]}
{"id": "C31", "title": "Disjoint sets", "statement": "Under any history of find and union in which union is called on representatives (as returned by find), two elements have the same representative iff they were connected by the unions; a union on arbitrary elements can separate elements that were joined, and can make find run for ever; but in every history elements with the same representative are connected by the unions.", "quantifier": "all histories", "why_tests_cant": "histories are unbounded", "anchors": ["rosemary/data_structures/unionfind.py:UnionFind", "rosemary/data_structures/unionfind.py:NamedUnionFind"]}
{"id": "C32", "title": "Memoisation is transparent", "statement": "A memoised pure function returns on every call, in every call sequence, the value of the original function and calls it at most once per argument tuple.", "quantifier": "all functions and call histories", "why_tests_cant": "history dependent", "anchors": ["rosemary/utilities.py:cached_function"]}
{"id": "C33", "title": "Generation of combinations", "statement": "combinations(n, t) with 0 <= t <= n yields each t-subset of {0..n-1} exactly once as a decreasing list, in lexicographic order.", "quantifier": "all 0 <= t <= n", "why_tests_cant": "exactness of an unbounded enumeration", "anchors": ["rosemary/combinatorics/generation/combinations.py:combinations"]}
{"id": "C34", "title": "Generation of tuples", "statement": "n_tuples(n, M) yields each tuple with 0 <= a_j < M[j] exactly once, in lexicographic order, for all radices M[j] >= 1.", "quantifier": "all n and all radix vectors", "why_tests_cant": "exactness of an unbounded enumeration", "anchors": ["rosemary/combinatorics/generation/tuples.py:n_tuples"]}
{"id": "C35", "title": "Generation of permutations of a multiset", "statement": "knuth_algorithm_l(elements) yields each distinct arrangement of the multiset exactly once in increasing lexicographic order and terminates; phillips does the same for three or more elements that are not all equal, but yields a duplicate for two equal elements and raises IndexError for three or more equal elements.", "quantifier": "all finite sequences of comparable elements", "why_tests_cant": "number of arrangements and ties unbounded", "anchors": ["rosemary/combinatorics/generation/permutations.py:knuth_algorithm_l", "rosemary/combinatorics/generation/permutations.py:phillips"]}
{"id": "C36", "title": "Generation of variations", "statement": "knuth_algorithm_l_variations yields each arrangement of each sub-multiset exactly once in lexicographic order; knuth_algorithm_l_rvariations(elements, r) each arrangement of each r-element sub-multiset.", "quantifier": "all finite sequences and 0 <= r <= length", "why_tests_cant": "unbounded enumeration", "anchors": ["rosemary/combinatorics/generation/permutations.py:knuth_algorithm_l_variations", "rosemary/combinatorics/generation/permutations.py:knuth_algorithm_l_rvariations"]}
{"id": "C37", "title": "Generation of integer partitions", "statement": "integer_partitions(n) for n >= 1 yields each partition of n exactly once; with custom parts or distinctness the yielded lists are exactly the partitions meeting the constraint, except for the documented deviations (more parts than n yields an empty list; the largest custom part may repeat under distinct; num_parts=1 raises IndexError).", "quantifier": "all n and constraints", "why_tests_cant": "unbounded enumeration", "anchors": ["rosemary/combinatorics/generation/partitions.py:integer_partitions"]}
{"id": "C38", "title": "Binomial and multinomial coefficients", "statement": "binomial(n, k) is the number of k-subsets of an n-set for 0 <= k <= n (and 1 instead of 0 for k > n); multinomial(n, ks) == n!/(prod k_i!) when sum(ks) <= n.", "quantifier": "all n, k", "why_tests_cant": "exactness of repeated floor division", "anchors": ["rosemary/combinatorics/enumeration/enumeration.py:binomial", "rosemary/combinatorics/enumeration/enumeration.py:multinomial"]}
{"id": "C39", "title": "Bell and Stirling numbers", "statement": "bell_number(n) satisfies the Bell recurrence, i.e. is the number of set partitions of an n-set; stirling_number2(m, n) should be the number of partitions of an m-set into n blocks, which it is for n = 0 and n = 1 only: for n = 2 <= m it returns 2^(m-2) - 1 instead of 2^(m-1) - 1, and for m, n >= 3 it raises KeyError.", "quantifier": "all n >= 0", "why_tests_cant": "unbounded recurrence with in-place floor division", "anchors": ["rosemary/combinatorics/enumeration/enumeration.py:bell_number", "rosemary/combinatorics/enumeration/enumeration.py:stirling_number2"]}
{"id": "C40", "title": "Bipartition counts", "statement": "bipartitions(m, n) is the number of multisets of nonzero vectors of naturals summing to (m, n).", "quantifier": "all m, n >= 0", "why_tests_cant": "in-place dynamic programming over unbounded tables", "anchors": ["rosemary/combinatorics/enumeration/enumeration.py:bipartitions"]}
{"id": "C41", "title": "Tiling counts", "statement": "number_of_domino_tilings(m, n) and triomino_tilings(m, n) count the tilings of the board; results do not depend on memoisation or set iteration order.", "quantifier": "all m, n >= 1", "why_tests_cant": "unbounded boards, memoised search", "anchors": ["rosemary/combinatorics/enumeration/enumeration.py:number_of_domino_tilings", "rosemary/combinatorics/enumeration/enumeration.py:triomino_tilings"]}
{"id": "C42", "title": "Bit-vector exact cover", "statement": "ExactCoverBinary(integers).solutions() yields exactly the sub-collections of pairwise disjoint vectors whose union is all bits, each once; number_of_solutions() is their number.", "quantifier": "all lists of positive integers", "why_tests_cant": "unbounded search, memoisation", "anchors": ["rosemary/combinatorics/optimization/exact_cover.py:ExactCoverBinary"]}
{"id": "C43", "title": "Algorithm X", "statement": "algorithmx(target, sets) (and algorithm_dlx, the same code) yields each exact cover of target by nonempty sets of the family exactly once, whatever the iteration orders of Python's sets, and restores its table of columns; a set with an element outside target raises KeyError.", "quantifier": "all finite set families", "why_tests_cant": "destructive updates must be undone on every branch", "anchors": ["rosemary/combinatorics/optimization/exact_cover.py:algorithmx", "rosemary/combinatorics/optimization/exact_cover.py:algorithm_dlx"]}
{"id": "C44", "title": "Exact knapsack solvers are optimal", "statement": "depth_first(items, capacity) and dynamic_programming(items, capacity) return the maximum total value over all sub-collections of total weight at most capacity, together with a sub-collection attaining it.", "quantifier": "all lists of items with non-negative integer weights, all capacities >= 0", "why_tests_cant": "optimality quantifies over all sub-collections", "anchors": ["rosemary/combinatorics/optimization/knapsack.py:depth_first", "rosemary/combinatorics/optimization/knapsack.py:dynamic_programming"]}
{"id": "C45", "title": "Annealed knapsack stays feasible", "statement": "For every sequence of random draws simulated_annealing(items, capacity) returns a feasible selection and its exact value, for nonnegative weights and nonnegative values up to 2^1000; with negative values it may raise OverflowError instead, but never returns anything infeasible.", "quantifier": "all random histories", "why_tests_cant": "randomised history", "anchors": ["rosemary/combinatorics/optimization/knapsack.py:simulated_annealing"]}
{"id": "C46", "title": "Travelling salesman solvers", "statement": "depth_first and branch_and_bound return a tour of least cost, with its cost. two_opt terminates on symmetric distances and returns a tour, with its cost, that is no dearer than the identity tour and cannot be improved by reversing one segment; with other distances what it returns is still a tour, but the cost may be wrong, and it may never end. farthest_insertion returns a tour with its cost, made by the rule of its name: each city inserted was one farthest from the tour so far, put where the tour became least longer; steepest_ascent_two_opt improves on it. Annealing of three or more points ends and returns a tour with its cost, never dearer than its start, whatever is drawn, unless random() returns 0.0, which may raise ValueError.", "quantifier": "all distance matrices (symmetric ones for the segment-reversal methods), all random draws", "why_tests_cant": "optimality quantifies over all tours; unbounded improvement loop", "anchors": ["rosemary/combinatorics/optimization/tsp.py:depth_first", "rosemary/combinatorics/optimization/tsp.py:branch_and_bound", "rosemary/combinatorics/optimization/tsp.py:farthest_insertion", "rosemary/combinatorics/optimization/tsp.py:two_opt", "rosemary/combinatorics/optimization/tsp.py:steepest_ascent_two_opt", "rosemary/combinatorics/optimization/tsp.py:simulated_annealing_two_opt", "rosemary/combinatorics/optimization/tsp.py:random_two_opt"]}
{"id": "C47", "title": "Polynomial addition, subtraction and multiplication", "statement": "list_add, list_subtract, mul_classical and mul_karatsuba compute the coefficients of sum, difference and product; mul_karatsuba(M, N) == mul_classical(M, N) as lists.", "quantifier": "all coefficient lists", "why_tests_cant": "recursive splitting of unbounded lists", "anchors": ["rosemary/algebra/polynomials/algorithms.py:list_add", "rosemary/algebra/polynomials/algorithms.py:list_subtract", "rosemary/algebra/polynomials/algorithms.py:mul_classical", "rosemary/algebra/polynomials/algorithms.py:mul_karatsuba"]}
{"id": "C48", "title": "Polynomial and power-series powers", "statement": "power_jcp(A, k) has the coefficients of the k-th power for k >= 0 and non-zero A; ps_power(A, k) those of the truncated power for A[0] != 0.", "quantifier": "all lists and exponents", "why_tests_cant": "requires exactness of floor division at every step", "anchors": ["rosemary/algebra/polynomials/algorithms.py:power_jcp", "rosemary/algebra/power_series/power_series.py:ps_power"]}
{"id": "C49", "title": "Polynomial division", "statement": "pseudo_quo_rem(u, v) returns q, r with l**(m-n+1)*u == q*v + r and deg r < deg v; quo_rem(u, v) returns q, r with u == q*v + r, and deg r < deg v for monic v.", "quantifier": "all integer polynomials", "why_tests_cant": "unbounded degrees", "anchors": ["rosemary/algebra/polynomials/polynomials.py:Polynomial.pseudo_quo_rem", "rosemary/algebra/polynomials/polynomials.py:Polynomial.quo_rem"]}
{"id": "C50", "title": "Polynomial evaluation and normal form", "statement": "Polynomials are kept without trailing zeros, equality is equality as functions of the coefficients, evaluation is a ring homomorphism; subtracting a plain number adds it instead.", "quantifier": "all polynomials and arguments", "why_tests_cant": "algebraic laws over all inputs", "anchors": ["rosemary/algebra/polynomials/polynomials.py:Polynomial"]}
{"id": "C51", "title": "Power-series inversion", "statement": "ps_invert(A) is the inverse series modulo x**len(A) when A[0] is 1 or -1.", "quantifier": "all lists with invertible constant term", "why_tests_cant": "unbounded precision", "anchors": ["rosemary/algebra/power_series/power_series.py:ps_invert", "rosemary/algebra/power_series/power_series.py:ps_mult_karatsuba"]}
{"id": "C52", "title": "Matrix arithmetic", "statement": "Matrix sum, difference, negation, scalar and square products agree with the mathematical definitions; a product whose result is not square raises IndexError. Sums and differences do not check the shapes: a larger second matrix is cut off, a smaller one raises IndexError.", "quantifier": "all matrices", "why_tests_cant": "all dimensions", "anchors": ["rosemary/algebra/matrices/matrices.py:Matrix"]}
{"id": "C53", "title": "Determinant", "statement": "determinant returns the determinant for every square integer matrix in which no zero pivot is met; when a zero pivot is met and the first non-zero entry below is in the last row it returns 0 even though the matrix may be invertible; it overwrites the matrix.", "quantifier": "all square integer matrices", "why_tests_cant": "exactness of fraction-free elimination at every size", "anchors": ["rosemary/algebra/matrices/matrices.py:Matrix.determinant"]}
{"id": "C54", "title": "Graph mutation keeps the graph undirected", "statement": "After any history of add_vertex, add_edge, delete_vertex, delete_edge the adjacency stays symmetric with equal weights, every neighbour is a vertex, and each operation has exactly its documented effect and no other.", "quantifier": "all operation histories", "why_tests_cant": "histories are unbounded", "anchors": ["rosemary/graphs/graphs.py:Graph.add_edge", "rosemary/graphs/graphs.py:Graph.delete_vertex", "rosemary/graphs/graphs.py:Graph.delete_edge"]}
{"id": "C55", "title": "Derived graphs", "statement": "complement(), induced_subgraph(S), remove_vertex, remove_vertices, remove_edge, remove_neighborhood and remove_closed_neighborhood contain exactly the documented vertices and edges and leave the original unchanged; the sum of the degrees is twice the number of edges for loop-free graphs.", "quantifier": "all graphs", "why_tests_cant": "all sizes and shapes", "anchors": ["rosemary/graphs/graphs.py:Graph.complement", "rosemary/graphs/graphs.py:Graph.induced_subgraph", "rosemary/graphs/graphs.py:Graph.num_edges"]}
{"id": "C56", "title": "Breadth-first search", "statement": "breadth_first_search(graph, s) yields exactly the vertices reachable from s, once each, in non-decreasing distance; with max_depth d exactly those at distance at most d; breadth_first_search_tree's parent pointers form a shortest-path tree.", "quantifier": "all graphs and iteration orders", "why_tests_cant": "all graph sizes and shapes", "anchors": ["rosemary/graphs/algorithms/traversal.py:breadth_first_search", "rosemary/graphs/algorithms/traversal.py:breadth_first_search_tree"]}
{"id": "C57", "title": "Depth-first search", "statement": "depth_first_search(graph, s) without max_depth yields exactly the vertices reachable from s once each, and depth_first_search_tree's parents form a tree rooted at s; with max_depth it may omit vertices within that distance, but none if max_depth is at least the number of vertices. A start that is not a vertex is yielded before KeyError is raised; the tree raises it at once.", "quantifier": "all graphs and iteration orders", "why_tests_cant": "all graph sizes and shapes", "anchors": ["rosemary/graphs/algorithms/traversal.py:depth_first_search", "rosemary/graphs/algorithms/traversal.py:depth_first_search_tree"]}
{"id": "C58", "title": "Connected components", "statement": "connected_components partitions the vertices into the classes of mutual reachability; is_connected is True iff there is at most one class.", "quantifier": "all graphs", "why_tests_cant": "all graph sizes and shapes", "anchors": ["rosemary/graphs/algorithms/connectivity.py:connected_components", "rosemary/graphs/algorithms/connectivity.py:is_connected"]}
{"id": "C59", "title": "Dijkstra shortest paths", "statement": "For non-negative weights dijkstra(graph, s) returns the exact distance of every vertex (infinity when unreachable) and a predecessor map describing shortest paths; dijkstra_iterator yields vertices in non-decreasing distance with a shortest path; ValueError iff s is not a vertex.", "quantifier": "all graphs with non-negative weights", "why_tests_cant": "optimality over all paths in all graphs", "anchors": ["rosemary/graphs/algorithms/paths.py:dijkstra", "rosemary/graphs/algorithms/paths.py:dijkstra_iterator", "rosemary/graphs/algorithms/paths.py:dijkstra_buckets", "rosemary/graphs/algorithms/paths.py:dijkstra_pairing_heap"]}
{"id": "C60", "title": "Bellman-Ford", "statement": "bellman_ford(graph, s) always terminates; if it returns, the costs are exact distances; it raises ValueError if a negative cycle is reachable and only then (or if s is not a vertex).", "quantifier": "all weighted graphs", "why_tests_cant": "optimality over all walks", "anchors": ["rosemary/graphs/algorithms/paths.py:bellman_ford"]}
{"id": "C61", "title": "Floyd-Warshall", "statement": "floyd_warshall(graph) returns the exact distance for each pair when there is no negative edge and raises ValueError when there is one.", "quantifier": "all weighted undirected graphs", "why_tests_cant": "optimality over all paths", "anchors": ["rosemary/graphs/algorithms/paths.py:floyd_warshall"]}
{"id": "C62", "title": "Bidirectional Dijkstra", "statement": "For distinct connected s, t dijkstra_bidirectional returns the distance and a path of that length; for s == t it returns (inf, []); for disconnected vertices it returns the bare value inf.", "quantifier": "all graphs with non-negative weights", "why_tests_cant": "optimality over all paths", "anchors": ["rosemary/graphs/algorithms/paths.py:dijkstra_bidirectional"]}
{"id": "C63", "title": "Minimum spanning trees", "statement": "prim returns a spanning tree of least total weight of the root's component; kruskal returns a least-weight spanning tree of a connected graph, and raises IndexError when the graph is disconnected.", "quantifier": "all weighted graphs", "why_tests_cant": "optimality over all spanning trees", "anchors": ["rosemary/graphs/algorithms/spanning_trees.py:prim", "rosemary/graphs/algorithms/spanning_trees.py:kruskal"]}
{"id": "C64", "title": "Maximal clique enumeration", "statement": "bron_kerbosch, bron_kerbosch_binary and tomita yield exactly the maximal cliques of a loop-free graph, each once, whatever the set iteration order.", "quantifier": "all loop-free graphs and iteration orders", "why_tests_cant": "completeness over all vertex subsets", "anchors": ["rosemary/graphs/algorithms/cliques.py:bron_kerbosch", "rosemary/graphs/algorithms/cliques.py:bron_kerbosch_binary", "rosemary/graphs/algorithms/cliques.py:tomita"]}
{"id": "C65", "title": "Maximum cliques", "statement": "pardalos and ostergard return a clique of maximum size and its size; maximum_weight_clique one of maximum weight when no weight is negative. For any weights it returns a clique together with its weight, which is at least 0.", "quantifier": "all non-empty loop-free graphs", "why_tests_cant": "optimality over all vertex subsets", "anchors": ["rosemary/graphs/algorithms/cliques.py:pardalos", "rosemary/graphs/algorithms/cliques.py:ostergard", "rosemary/graphs/algorithms/cliques.py:maximum_weight_clique"]}
{"id": "C66", "title": "Heuristic colourings are proper", "statement": "dsatur and greedy_sequential return a proper colouring of every vertex using exactly the reported number of colours; the greedy colouring uses at most maximum degree + 1 colours. dsatur follows its rule: it starts with a vertex of greatest degree, then always takes a vertex with most colours among its neighbours, ties broken by the number of uncoloured neighbours, and gives it the least free colour.", "quantifier": "all non-empty loop-free graphs and vertex orders", "why_tests_cant": "all graphs", "anchors": ["rosemary/graphs/algorithms/coloring.py:dsatur", "rosemary/graphs/algorithms/coloring.py:greedy_sequential"]}
{"id": "C67", "title": "Exact colouring", "statement": "coloring.branch_and_bound returns the chromatic number; the colouring it returns is proper and total unless the graph is complete, where it returns empty classes.", "quantifier": "all non-empty loop-free graphs", "why_tests_cant": "optimality over all colourings", "anchors": ["rosemary/graphs/algorithms/coloring.py:branch_and_bound"]}
{"id": "C68", "title": "Independent sets", "statement": "independent_sets.branch_and_bound returns a maximum independent set; greedy returns a maximal independent set for every random choice; culberson returns an independent set, which is empty for edgeless graphs.", "quantifier": "all loop-free graphs and random choices", "why_tests_cant": "optimality over all vertex subsets", "anchors": ["rosemary/graphs/algorithms/independent_sets.py:branch_and_bound", "rosemary/graphs/algorithms/independent_sets.py:greedy", "rosemary/graphs/algorithms/independent_sets.py:culberson"]}
{"id": "C69", "title": "Hamiltonian paths", "statement": "hamiltonian_paths yields exactly the Hamiltonian paths, each once; number_of_hamiltonian_paths and its bit-set variants return their number, and so does the inclusion-exclusion formula for two or more vertices. The variant of that formula that skips sets is right on complete graphs but not in general.", "quantifier": "all graphs with at least one vertex", "why_tests_cant": "unbounded search", "anchors": ["rosemary/graphs/algorithms/hamiltonian_paths.py:hamiltonian_paths", "rosemary/graphs/algorithms/hamiltonian_paths.py:number_of_hamiltonian_paths"]}
{"id": "C70", "title": "Graphic sequences", "statement": "is_graphic(S) is True exactly when S is the degree sequence of a simple graph; is_graphic_erdos_gallai gives the same answer for every sequence of non-negative integers with an even sum; it does not check these two conditions and accepts [1, 1, 1].", "quantifier": "all integer sequences", "why_tests_cant": "existence over all graphs", "anchors": ["rosemary/graphs/algorithms/degree_sequences.py:is_graphic", "rosemary/graphs/algorithms/degree_sequences.py:is_graphic_erdos_gallai"]}
{"id": "C71", "title": "Primes in an interval", "statement": "prime_range(a, b) yields primes in increasing order without repetition: for b <= 10^7 exactly the primes a <= p <= b, for larger b exactly those of [a, b) when a > isqrt(b)+1. The documented interval [a, b) is not respected: prime_range(10, 19) yields 19, and for b > 10^7 a prime a <= isqrt(b) is missed.", "quantifier": "all integers a and b < 2^104", "why_tests_cant": "infinitely many intervals; the two code paths meet only beyond 10^7", "anchors": ["rosemary/number_theory/primes/sieves.py:prime_range", "rosemary/number_theory/primes/sieves.py:sieve_interval"]}
{"id": "C72", "title": "Perfect powers and squares", "statement": "is_square(n) returns the square root of a square and False otherwise; is_power(n) returns (b, e) with n == b**e and e >= 2 maximal, or False when n >= 2 is no such power; is_power(n, k) finds the k-th root exactly when there is one; is_power2 returns the least exponent; the same answers are given for a prime factorization of n; is_factorial(n) is True exactly for factorials.", "quantifier": "all integers", "why_tests_cant": "infinitely many integers; root extraction must be exact at every size", "anchors": ["rosemary/number_theory/classification.py:is_square", "rosemary/number_theory/classification.py:is_power", "rosemary/number_theory/classification.py:is_power2", "rosemary/number_theory/classification.py:is_factorial"]}
{"id": "C73", "title": "Knapsack branch and bound is optimal", "statement": "branch_and_bound_depth_first(items, capacity) returns the best value and items, with their positions, of a feasible selection attaining it, although ratios and bounds are rounded to doubles (as long as the total value is at most 2^49); for larger totals, up to 2^500, it is still a feasible selection with its value; an item of weight 0 raises ZeroDivisionError.", "quantifier": "all lists of items with values >= 0 and weights > 0, all capacities >= 0", "why_tests_cant": "the pruning bound must dominate every completion of every partial selection", "anchors": ["rosemary/combinatorics/optimization/knapsack.py:branch_and_bound_depth_first"]}
{"id": "C74", "title": "Named graphs", "statement": "complete_graph(n), coprime_pairs_graph(n), grid_graph(n) and random_graph(n, d) have exactly the vertices and edges their names promise; petersen_graph() is the graph of the 2-element subsets of a 5-element set, joined when disjoint; complete_graph(1) is the exception: it has no vertices.", "quantifier": "all n and all random draws", "why_tests_cant": "parametric families", "anchors": ["rosemary/graphs/graphs.py:complete_graph", "rosemary/graphs/graphs.py:coprime_pairs_graph", "rosemary/graphs/graphs.py:grid_graph", "rosemary/graphs/graphs.py:petersen_graph", "rosemary/graphs/graphs.py:random_graph"]}
{"id": "C75", "title": "Continued fraction factorisation", "statement": "smooth_factor finds the exponents of n over a factor base exactly when there are some and raises ValueError otherwise; the pairs of _cfrac_aq_pairs satisfy A^2 = (-1)^i Q modulo n with 0 < Q <= 2 sqrt(n); _cfrac_multiplier returns the least admissible multiplier with the most small quadratic residues; each kernel vector gives a congruence of squares; whatever cfrac returns is None or a divisor of n greater than 1, equal to n only if n is prime. A square without small factors raises ZeroDivisionError.", "quantifier": "all n, multipliers, factor base bounds and numbers of rounds", "why_tests_cant": "all sizes; the correctness rests on invariants of the continued fraction expansion", "anchors": ["rosemary/number_theory/factorization/algorithms.py:smooth_factor", "rosemary/number_theory/factorization/algorithms.py:_cfrac_aq_pairs", "rosemary/number_theory/factorization/algorithms.py:_cfrac_multiplier", "rosemary/number_theory/factorization/algorithms.py:cfrac"]}
{"id": "C76", "title": "Sums of arithmetic functions", "statement": "euler_phi_sum(n), euler_phi_weighted_sum(n), moebius_sum(n) and sigma_sum(n) return the sums over k = 1..n of phi(k), k*phi(k), mu(k) and sigma(k); n < 1 raises ValueError. Where the floating-point square root is not exact sigma_sum is wrong (2^60 - 1).", "quantifier": "all n with 1 <= n < 2^52", "why_tests_cant": "the recursion shares a cache and regroups the sum by quotients; equality with the direct sum must hold for every n", "anchors": ["rosemary/number_theory/arithmetic_functions/sums.py:euler_phi_sum", "rosemary/number_theory/arithmetic_functions/sums.py:euler_phi_weighted_sum", "rosemary/number_theory/arithmetic_functions/sums.py:moebius_sum", "rosemary/number_theory/arithmetic_functions/sums.py:sigma_sum"]}
{"id": "C77", "title": "Arithmetic progressions in sorted lists", "statement": "has_three_term_ap returns three entries in arithmetic progression at increasing positions of a non-decreasing list whenever there are any and False otherwise. longest_ap on an increasing list returns a sorted duplicate-free list of longest progressions, all of them as soon as three elements are in progression; when none are, pairs with the last element are missing.", "quantifier": "all sorted lists of integers", "why_tests_cant": "two-pointer searches and a table of lengths must be complete for every list", "anchors": ["rosemary/number_theory/arithmetic_progressions.py:has_three_term_ap", "rosemary/number_theory/arithmetic_progressions.py:longest_ap"]}
{"id": "C78", "title": "Record divisor counts, Bernoulli numbers and largest divisors are exact", "statement": "maximize_divisors(B) returns (t, m) with 1 <= m <= B, m having exactly t divisors and no number up to B having more. bernoulli_list(n) returns the exact Bernoulli numbers B_0..B_n. largest_divisor(n, b) returns the largest divisor of n not exceeding b.", "quantifier": "all B below the product of the primes up to 1000000; all n >= 1 (n = 0 is refuted); all n and b >= 1 (refuted unless b divides n)", "why_tests_cant": "The divisor search is a branch and bound that drops every candidate with an increasing exponent pattern or with a missing prime, and its correctness is an exchange argument over all numbers up to B; the Bernoulli recurrence skips odd indices, which is right only because those numbers vanish for every index.", "anchors": ["rosemary/number_theory/misc.py:maximize_divisors", "rosemary/number_theory/misc.py:bernoulli_list", "rosemary/number_theory/misc.py:largest_divisor"]}
{"id": "C79", "title": "Partition numbers and the eta product are exact", "statement": "partition_list(n) lists the numbers of partitions of 0..n, partition_number(n) is the last of them; eta_series(prec) lists the coefficients of the infinite product of (1 - x^i) and delta_series(n) those of its 24th power; rth_power_partition_number(r, n) is a coefficient of the r-th power of the partition generating function.", "quantifier": "all 1 <= n < 2^45 for partitions (the floating point index is exact there), all prec >= 1 for the series; n <= 0, and r <> 1 with n >= 1, are refuted", "why_tests_cant": "The code relies on Euler's pentagonal number theorem, an identity between infinite series, and on a floating-point index being exact for every n.", "anchors": ["rosemary/combinatorics/enumeration/enumeration.py:partition_list", "rosemary/combinatorics/enumeration/enumeration.py:partition_number", "rosemary/combinatorics/enumeration/enumeration.py:rth_power_partition_number", "rosemary/algebra/power_series/power_series.py:eta_series", "rosemary/algebra/power_series/power_series.py:delta_series"]}
{"id": "C80", "title": "necklaces counts the colourings of a ring up to rotation", "statement": "For n >= 1 beads and k >= 0 colours, necklaces(n, k) is the number of strings of n beads with colours among k, where strings that differ by a rotation count once: any list with exactly one string from every rotation class has that many elements, and such a list exists. Calling it with the documented weights argument always raises TypeError.", "quantifier": "every n >= 1 whose divisors are factored correctly (with the library's factor, every n up to 10^12), every k >= 0", "why_tests_cant": "The count is of an exponentially large set and the claim is for all n and k; tests can compare a handful of values only.", "anchors": ["rosemary/combinatorics/enumeration/enumeration.py:necklaces"]}
{"id": "C81", "title": "euler_phi_inverse lists exactly the preimages of a totient value", "statement": "For n >= 1, given as an integer or as its prime factorization, euler_phi_inverse(n) returns the strictly increasing list of exactly the positive integers x with phi(x) = n (phi(x) being the number of units modulo x): none is missing, none is spurious, none is repeated. The empty list therefore proves that n is not a totient. For an integer n <= 0 it raises ValueError.", "quantifier": "every n >= 1 that is factored correctly (with the library's factor, every n up to 10^12 and every outcome of its random choices), in both argument forms; every n <= 0 for the error", "why_tests_cant": "Completeness is a claim about all integers x: a missed preimage can only be noticed against an independent search, and only for the few n searched.", "anchors": ["rosemary/number_theory/arithmetic_functions/inverse_functions.py:euler_phi_inverse"]}
{"id": "C82", "title": "inverse_phi returns the full preimage when it returns", "statement": "For n >= 2, inverse_phi(n) either raises RuntimeError (the dictionary it iterates over grew) or returns the strictly increasing list of exactly the integers x with phi(x) = n. It never raises when 4 does not divide n and always raises when 8 divides n; in general it raises exactly when some x with phi(x) dividing n has a totient that no earlier prime power has. The unconditional claim thus fails, e.g. for 8 = phi(15), and inverse_phi(1) omits 1.", "quantifier": "every n >= 2 that is factored correctly (with the library's factor, every n up to 10^12 and every outcome of its random choices)", "why_tests_cant": "Completeness ranges over all x; and the tests would have to find which n make the dictionary grow during iteration.", "anchors": ["rosemary/number_theory/arithmetic_functions/inverse_functions.py:inverse_phi"]}
{"id": "C83", "title": "cheriton_tarjan returns a minimum spanning tree, on graphs with two neighbours everywhere", "statement": "For a connected undirected weighted graph in which every vertex has at least two neighbours, and whatever random.choice returns, cheriton_tarjan returns the weight and the sorted edge list of a minimum spanning tree, the same weight as kruskal. The documented behaviour fails elsewhere: a graph that is not connected gets TypeError instead of a spanning forest, and any graph having a vertex with fewer than two neighbours gets UnboundLocalError.", "quantifier": "every undirected weighted graph (integer weights of any sign), every sequence of random choices", "why_tests_cant": "The function makes random choices at every step and its result is compared with all spanning trees; tests see a few runs on a few graphs.", "anchors": ["rosemary/graphs/algorithms/spanning_trees.py:cheriton_tarjan", "rosemary/data_structures/heaps.py:LeftistHeap", "rosemary/data_structures/unionfind.py:UnionFind"]}
{"id": "C84", "title": "exact_coloring (korman) finds a minimum colouring", "statement": "For every undirected loop-free graph in which each vertex has a neighbour, korman(graph, classes) and exact_coloring(graph, classes) return; the number is the chromatic number of the graph, and the second component is a proper colouring with exactly the colours 1..k (or the k nonempty independent classes). With isolated vertices the claim fails: a graph with two or more vertices and no edge raises UnboundLocalError, and on a path of three vertices with one more isolated vertex the search never ends. The empty graph raises ValueError.", "quantifier": "all undirected loop-free graphs without isolated vertices, every iteration order of the sets at every round, both values of classes; the refutations hold for every bound on the number of rounds", "why_tests_cant": "Optimality quantifies over all colourings of all graphs, termination over all runs, and the choice of the next vertex depends on the iteration order of a set.", "anchors": ["rosemary/graphs/algorithms/coloring.py:korman", "rosemary/graphs/algorithms/coloring.py:exact_coloring", "rosemary/graphs/algorithms/coloring.py:dsatur", "rosemary/graphs/algorithms/cliques.py:maximum_clique"]}
{"id": "C85", "title": "distance_network_heuristic: a Steiner tree within twice the optimum", "statement": "For an undirected graph with non-negative weights and two or more distinct, mutually reachable terminals, distance_network_heuristic(graph, terminals) returns (weight, edges) where edges is a tree of the graph that contains all terminals, listed in increasing order, weight is its weight, every leaf of the tree is a terminal, and t*weight <= 2*(t-1)*W for the weight W of any tree of the graph that contains the t terminals. Terminals that cannot be reached from the first one are left out: there is then no tree through all terminals, but the call returns a tree for the others (with the same bound), or raises StopIteration when none can be reached. A single terminal raises StopIteration although one vertex is a tree.", "quantifier": "every undirected graph with non-negative integer weights, every list of distinct terminals, connected or not, every iteration order of the sets, every competing tree", "why_tests_cant": "the bound compares the answer with every tree through the terminals, which is NP-hard to minimise, and the result must be a tree on every graph and for every order of the sets", "anchors": ["rosemary/graphs/algorithms/steiner_trees.py:distance_network_heuristic", "rosemary/graphs/algorithms/steiner_trees.py:_improve", "rosemary/graphs/algorithms/steiner_trees.py:_delete_nonterminal_leaves", "rosemary/graphs/graphs.py:leaves", "rosemary/graphs/graphs.py:edges"]}
{"id": "C86", "title": "minimum_cost_paths_heuristic: a Steiner tree within twice the optimum", "statement": "For an undirected graph with positive weights and two or more distinct, mutually reachable terminals, minimum_cost_paths_heuristic(graph, terminals) ends and returns (weight, edges) where edges is a tree of the graph that contains all terminals, listed in increasing order, weight is its weight, every leaf is a terminal, and t*weight <= 2*(t-1)*W for any tree of weight W that contains the t terminals. With an edge of weight zero the loop may never end; when some terminal cannot be reached from the first one the loop never ends, or UnboundLocalError is raised if the first is cut off from all others; a single terminal raises StopIteration and none UnboundLocalError.", "quantifier": "every undirected graph with positive integer weights, every list of two or more connected terminals, every iteration order of the sets, every competing tree", "why_tests_cant": "the bound compares the answer with every tree through the terminals, and termination must hold on every graph and for every order of the sets; the failure for weight zero depends on that order", "anchors": ["rosemary/graphs/algorithms/steiner_trees.py:minimum_cost_paths_heuristic", "rosemary/graphs/algorithms/steiner_trees.py:_improve", "rosemary/graphs/algorithms/steiner_trees.py:_delete_nonterminal_leaves"]}
{"id": "C87", "title": "The alphametic solver yields exactly the solutions", "statement": "For every list of non-empty words on the two sides, the generator returned by alphametics.solve yields the values of the words for every assignment of distinct decimal digits to the letters that gives no word a leading zero and makes the two sums equal; each solution is yielded once and nothing else is yielded. With more than ten letters nothing is yielded; an empty word raises IndexError.", "quantifier": "all pairs of lists of words of any number and length, all assignments of digits, all iteration orders of the sets of characters and digits", "why_tests_cant": "the divisibility pruning must never lose a solution whatever the words and whatever the order in which equal valuations are tried; tests only cover a few puzzles", "anchors": ["rosemary/combinatorics/recreational/alphametics.py:solve"]}
{"id": "C88", "title": "The sudoku solver returns a completion exactly when there is one", "statement": "For every string of at most 81 digits (0 for an empty cell), sudoku_dlx returns a filled 9x9 grid that keeps the given digits and has no repeated digit in a row, a column or a box, if one exists; otherwise it raises StopIteration. If the completion is unique it is the answer. A string of more than 81 digits raises IndexError.", "quantifier": "every digit string of length at most 81 and every iteration order of the sets involved", "why_tests_cant": "There are 10^81 puzzles, and the order in which Python iterates over the sets of strings changes from run to run.", "anchors": ["rosemary/combinatorics/optimization/exact_cover.py:parse", "rosemary/combinatorics/optimization/exact_cover.py:to_string", "rosemary/combinatorics/optimization/exact_cover.py:sudoku_vectors", "rosemary/combinatorics/optimization/exact_cover.py:sudoku_dlx"]}
{"id": "C89", "title": "maxis colours properly by removing independent sets, when it ends", "statement": "For every undirected loop-free graph and every choice of the limits, maxis removes non-empty independent sets until at most color_limit vertices are left; if each vertex left has a neighbour left (or none is left) the result is a proper colouring in which every colour is used, in either form, exact on the vertices that were left and an upper bound to the chromatic number. With color_limit = 0 this holds for every graph. Guard: use_greedy, or no independent set has more than mis_limit vertices. Without the guard the loop may never end: a graph without edges and with more than mis_limit vertices; and a graph of 2 to color_limit vertices without edges raises UnboundLocalError.", "quantifier": "every graph, all limits, all random choices and all iteration orders of sets", "why_tests_cant": "Graphs, limits, random choices and set orders are unbounded; non-termination cannot be observed by a test.", "anchors": ["rosemary/graphs/algorithms/coloring.py:maxis", "rosemary/graphs/algorithms/independent_sets.py:culberson", "rosemary/graphs/algorithms/independent_sets.py:greedy"]}
{"id": "C90", "title": "Adjacency, degree and Laplacian matrices and the density describe the graph", "statement": "For every non-empty undirected graph the rows and columns of the three matrices belong to the vertices in increasing order: the adjacency matrix is 1 exactly at the edges, symmetric, with zero diagonal without loops; the degree matrix has the degrees on the diagonal and zeros elsewhere; the Laplacian is their difference, symmetric, with rows that add up to zero, and its quadratic form is the sum of (x_u - x_v)^2 over the edges. For every loop-free graph with two or more vertices (and at most 94906266, so that the number of pairs is an exact float) the float density differs from the number of edges over the number of pairs by a relative error of at most 2^-53, is between 0 and 1, equal to 0 exactly for graphs without edges and to 1 exactly for complete graphs, and the densities of a graph and its complement add up to 1 within 2^-53. Graphs without vertices raise IndexError; the density with fewer than two vertices raises ZeroDivisionError.", "quantifier": "every undirected graph, every vector for the quadratic form", "why_tests_cant": "Graphs and vectors are unbounded.", "anchors": ["rosemary/graphs/graphs.py:Graph.adjacency_matrix", "rosemary/graphs/graphs.py:Graph.degree_matrix", "rosemary/graphs/graphs.py:Graph.laplacian_matrix", "rosemary/graphs/graphs.py:Graph.density", "rosemary/graphs/graphs.py:Graph.complement"]}
{"id": "C91", "title": "The compositeness tests reject an odd composite for at least half of the bases", "statement": "miller_rabin(n, a) answers True exactly when n is a strong probable prime to the base a. For every odd composite n, the bases 0 <= a < n for which miller_rabin (and likewise solovay_strassen, as documented) answers True are at most half of the numbers coprime to n; of the n - 3 bases that can be drawn at random fewer than half are. miller_rabin_deterministic accepts every prime, tests exactly the bases up to min(int(2 log(n)^2), n - 1), rejects every composite with a witness in that range, and is right without hypothesis whenever the bound is at least the square root of n. For miller_rabin the bound is a quarter: at most a quarter of the numbers coprime to an odd composite n other than 9 are accepted (9 has 2 accepting bases and 6 units), fewer than a quarter of the bases that can be drawn, 9 included, and of the sequences of k draws at most one in 4^k accepts n every time.", "quantifier": "every odd composite n, every set of bases; every value of the floating-point logarithm", "why_tests_cant": "The number of accepted bases for all composites cannot be enumerated.", "anchors": ["rosemary/number_theory/primes/primality.py:miller_rabin", "rosemary/number_theory/primes/primality.py:solovay_strassen", "rosemary/number_theory/primes/primality.py:miller_rabin_deterministic"]}
{"id": "C92", "title": "Content, primitive part and gcd of integer polynomials", "statement": "content(p) is a greatest common divisor of the coefficients. primitive_part(p) is a primitive polynomial of which p is a constant multiple, with a positive leading coefficient (not for negative constants; ZeroDivisionError for 0). p.gcd(q) returns a greatest common divisor in Z[x] if one of the degrees is at most one, or if the polynomial of lower degree divides a multiple of the other one; if the lower degree is two it returns it or fails, and it fails whenever the greatest common divisor has degree one. Whatever it returns, for any degrees, divides both polynomials, and is the greatest common divisor unless it is a constant and there is a common divisor of positive degree. The run always ends. The documented claim that gcd returns the greatest common divisor fails: (x-1)(x-2) and (x-1)(x-3) raise AttributeError, and (x-1)(5x^4+3x^3+1), (x-1)(3x^2+7x+1) give 1.", "quantifier": "every pair of polynomials with integer coefficients; every behaviour of the floating-point rounds", "why_tests_cant": "All polynomials; maximality quantifies over all common divisors.", "anchors": ["rosemary/algebra/polynomials/polynomials.py:PolyZZ.content", "rosemary/algebra/polynomials/polynomials.py:PolyZZ.primitive_part", "rosemary/algebra/polynomials/polynomials.py:Polynomial.gcd"]}
{"id": "C93", "title": "Genetic search for short tours: tours stay tours, costs are costs, local optimality", "statement": "For points in the plane TravelingSalesman.two_opt turns a tour into a tour; if it ends, no edge exchange among the 20 nearest neighbours that it looks for is left, and the cost it returns is the cost of its tour, whatever rounding does. In exact arithmetic it always ends and never returns a longer tour. The recombination of two tours is a tour: h successive points of one parent, then the other points in the order of the other parent. With at least 20 points and popsize at least 1, solve ends whenever two_opt does, the cost it reports is the cost of a tour, and no initial individual is better. When no generation improves on the initial population the second component is a tour of that cost; otherwise it is not a tour but a list [cost, tour] of the second best individual, so the claim that solve returns a cost and a tour of this cost fails. With fewer than 20 points (popsize at least 2, cmax at least 1) it raises ValueError, with popsize 0 IndexError.", "quantifier": "every number of points, every distance function, every behaviour of floating-point addition and subtraction, every shuffle and random draw, every population size and number of generations", "why_tests_cant": "All point sets, all random choices and all rounding behaviours; termination in exact arithmetic.", "anchors": ["rosemary/combinatorics/optimization/genetic_tsp.py:TravelingSalesman.__init__", "rosemary/combinatorics/optimization/genetic_tsp.py:TravelingSalesman.cost", "rosemary/combinatorics/optimization/genetic_tsp.py:TravelingSalesman.two_opt", "rosemary/combinatorics/optimization/genetic_tsp.py:TravelingSalesman.select", "rosemary/combinatorics/optimization/genetic_tsp.py:TravelingSalesman.mgkrec", "rosemary/combinatorics/optimization/genetic_tsp.py:TravelingSalesman.solve"]}
{"id": "C94", "title": "gabow: the spanning trees in the order of their weights", "statement": "For a connected undirected graph with at least one vertex, gabow(graph, k) generates pairs (weight, edges): each is a spanning tree of the graph with its total weight, no tree occurs twice, the weights do not decrease, and every spanning tree that has not been generated weighs at least as much as each one that has. The first is a minimum spanning tree. When the generator ends, k trees have been generated (one if k is not positive) or there is no further tree; it does not go on for ever. The claim that it ends quietly after the last tree fails: on the triangle with weights 1, 2, 3 it raises TypeError after the third tree, because two heap entries (inf, None, None, dictionary, ...) are compared. TypeError is the only exception; for the graph without vertices it is IndexError. For a graph that is not connected nothing is ever generated: KeyError is raised if some edge cannot be reached from the least vertex, TypeError if only isolated vertices cannot.", "quantifier": "every undirected graph, connected or not, every iteration order of the edge set, every k, every number of items asked for, and every heap implementation that returns an entry of least weight", "why_tests_cant": "All graphs and weights, the number of trees grows exponentially, and the minimality claim compares with all trees that are not generated.", "anchors": ["rosemary/graphs/algorithms/spanning_trees.py:gabow"]}
{"id": "C95", "title": "Latin squares as exact covers", "statement": "For every n >= 0 the exact covers of the integers latin_square_ints(n) are the Latin squares of order n: ExactCoverBinary(latin_square_ints(n)).number_of_solutions() is the number of Latin squares of order n, and solutions() yields, once for each Latin square, the list of the integers of its cells, from the last cell to the first.", "quantifier": "every order n >= 0, every Latin square of that order", "why_tests_cant": "The number of Latin squares grows faster than exponentially in n (576 for n = 4, 161280 for n = 5) and the claim is a bijection for every n.", "anchors": ["rosemary/combinatorics/optimization/exact_cover.py:latin_square_ints", "rosemary/combinatorics/optimization/exact_cover.py:ExactCoverBinary.number_of_solutions", "rosemary/combinatorics/optimization/exact_cover.py:ExactCoverBinary.solutions"]}
{"id": "C96", "title": "What is printed", "statement": "str(p) of a polynomial is a formula in its variable whose value at every x is p(x), and different polynomials print differently (for a variable name that begins neither with a digit nor with a minus sign). str(M) of a rectangular matrix is a table of its entries, right-justified to the width of the longest one, and different matrices print differently. Different Pell equations, graphs with different numbers of vertices and heaps of different sizes print differently. The claim that str of a QuadraticIrrational (p + sqrt(d))/q tells the number fails: for p != 0 and q = 1 it prints q in place of p; apart from that case it holds. p[i] is the coefficient (negative indices count from the end, IndexError outside), and != compares the coefficients.", "quantifier": "every polynomial, every variable name, every rectangular matrix with at least one row, all integers d, p, q", "why_tests_cant": "Injectivity compares the texts of all pairs of objects; numerals of all lengths and signs occur.", "anchors": ["rosemary/algebra/polynomials/polynomials.py:Polynomial.__repr__", "rosemary/algebra/polynomials/polynomials.py:Polynomial.__getitem__", "rosemary/algebra/polynomials/polynomials.py:Polynomial.__ne__", "rosemary/algebra/matrices/matrices.py:Matrix.__repr__", "rosemary/number_theory/continued_fractions.py:QuadraticIrrational.__repr__", "rosemary/number_theory/diophantine_equations/pell.py:PellEquation.__repr__", "rosemary/graphs/graphs.py:Graph.__repr__", "rosemary/data_structures/heaps.py:LeftistHeap.__repr__"]}
{"id": "C97", "title": "Graphs read from files", "statement": "load_graph(path) cuts the file into lines (ending with LF, CR LF or CR, the last one possibly with no end); if every line is two integers separated by one space (each with optional white space, sign and underscores, as int() accepts them), it returns the undirected graph whose edges are exactly these pairs, with weight 1, and whose vertices are exactly their ends; if any line is not of this form (a blank line, two spaces, three numbers) it raises ValueError. load_dimacs_graph does the same for the lines that begin with e, and ignores all others. int(str(z)) = z. Writing the edges of a graph with weights 1 and no isolated vertex as lines 'u v' or 'e u v' and loading the file gives the same graph. The claim that load_dimacs_graph loads the DIMACS graph fails when a vertex has no edge: such vertices, declared in the problem line, are lost.", "quantifier": "every file content, every integer, every undirected graph", "why_tests_cant": "Files of any length with any mixture of line ends, spaces and numerals; the error claim covers every malformed line at every position.", "anchors": ["rosemary/graphs/graphs.py:load_graph", "rosemary/graphs/graphs.py:load_dimacs_graph"]}
{"id": "C98", "title": "The odd graphs", "statement": "For 1 <= k <= 5, odd_graph(k) has as vertices exactly the texts of the (k-1)-element subsets of {0, ..., 2k-2} (the elements in increasing order), binomial(2k-1, k-1) of them; two vertices are joined by an edge of weight 1 if and only if the sets are different and disjoint; for k >= 2 every vertex has exactly k neighbours. For k <= 0 it raises ValueError. For every k >= 1 the vertices are the texts of k-1 characters that remain when characters are removed from '012...(2k-2)'. The docstring (the k-element subsets of {1, ..., 2k+1}) is false, and for no k >= 6 are the vertices the subsets, since the number 10 is taken for two characters: no set with an element above 9 is a vertex.", "quantifier": "every integer k; every pair of vertices", "why_tests_cant": "Adjacency is claimed for all pairs of vertices; the general description holds for every k.", "anchors": ["rosemary/graphs/graphs.py:odd_graph"]}
{"id": "C99", "title": "Matrices share no rows, except through delete_row", "statement": "In every program made of Matrix(list of new rows), Matrix(m, n), +, -, unary -, multiplication by a number, matrix products, delete_col, delete_row, assignments M[i, j] = v and determinants, in which no matrix is changed (by an assignment, or by determinant, which overwrites its matrix) while it is related to another one through delete_row, matrices behave as values: an operation changes at most the matrix it is applied to, and contents, determinants and exceptions are those of the program on values. In particular the results of +, -, *, negation and delete_col can be changed without changing their operands, and the other way round. With delete_row the claim is false: N = M.delete_row(0); N[0, 0] = 9 changes M, and so does M.delete_row(0).determinant().", "quantifier": "every program (sequence of operations), all entries and sizes", "why_tests_cant": "Aliasing shows up only in particular histories; the claim is about all of them.", "anchors": ["rosemary/algebra/matrices/matrices.py:Matrix.__init__", "rosemary/algebra/matrices/matrices.py:Matrix.__setitem__", "rosemary/algebra/matrices/matrices.py:Matrix.delete_row", "rosemary/algebra/matrices/matrices.py:Matrix.delete_col", "rosemary/algebra/matrices/matrices.py:Matrix.__add__", "rosemary/algebra/matrices/matrices.py:Matrix.determinant"]}
{"id": "C100", "title": "Shortest tours of points in the plane", "statement": "euclidean_distance_matrix(points) returns the square matrix with infinity on the diagonal and the computed distance of the points elsewhere, symmetric whatever the rounding. For two or more points and any arithmetic in which the numbers are linearly preordered (floats without nan), depth_first(points) returns a tour starting at 0 with its computed length and no tour starting at 0 has a smaller computed length; if no tour is shorter than infinity it returns infinity and an empty tour. For points with whole coordinates and whole distances depth_first and branch_and_bound return a shortest tour and two_opt one that reversing no segment shortens. For no points IndexError is raised. That a tour is returned for every nonempty list of points is false: one point gives [inf, []].", "quantifier": "all lists of points, all arithmetics with a linear preorder", "why_tests_cant": "Optimality compares with (n-1)! tours and rounding depends on every coordinate; tests see a few points.", "anchors": ["rosemary/combinatorics/optimization/tsp.py:euclidean_distance_matrix", "rosemary/combinatorics/optimization/tsp.py:cost", "rosemary/combinatorics/optimization/tsp.py:depth_first", "rosemary/combinatorics/optimization/tsp.py:branch_and_bound", "rosemary/combinatorics/optimization/tsp.py:two_opt"]}
{"id": "C101", "title": "Graphs are independent objects", "statement": "In every program that makes graphs with Graph(), copy, remove_vertex, remove_vertices, remove_edge, remove_neighborhood, remove_closed_neighborhood, induced_subgraph and complement, changes them with add_vertex, add_vertices, add_edge, add_edges, delete_vertex, delete_vertices, delete_edge and G[u][v] = w, and keeps dictionaries d = G[u], graphs behave as values: every operation leaves all graphs unchanged but the one it is called on, and the contents and exceptions are those of the program on values. A dictionary d = G[u] shows the present neighbours of u in G as long as u is not deleted from G, and from then on those u had at that moment, even if a vertex u is added again.", "quantifier": "every program (sequence of operations), all vertices and weights, all iteration orders of sets", "why_tests_cant": "Aliasing shows up only in particular histories; the claim is about all of them.", "anchors": ["rosemary/graphs/graphs.py:Graph.copy", "rosemary/graphs/graphs.py:Graph.__getitem__", "rosemary/graphs/graphs.py:Graph.__iter__", "rosemary/graphs/graphs.py:Graph.vertex_set", "rosemary/graphs/graphs.py:Graph.add_edge", "rosemary/graphs/graphs.py:Graph.delete_vertex", "rosemary/graphs/graphs.py:Graph.delete_vertices", "rosemary/graphs/graphs.py:Graph.remove_vertices", "rosemary/graphs/graphs.py:Graph.remove_edge", "rosemary/graphs/graphs.py:Graph.remove_neighborhood", "rosemary/graphs/graphs.py:Graph.remove_closed_neighborhood", "rosemary/graphs/graphs.py:Graph.induced_subgraph", "rosemary/graphs/graphs.py:Graph.complement"]}
{"id": "C102", "title": "Operators of matrices with mixed operands, and their laws", "statement": "Multiplying a matrix by a number from either side multiplies every entry and raises nothing but ValueError for rows of different lengths. Adding or subtracting a number and a matrix raises ValueError; therefore sum(l) fails for every nonempty list of matrices, while sum(l, start) with a start matrix adds the entries. For matrices of equal shape + is commutative and associative and - is its inverse; for square matrices * is associative, distributes over + from both sides, and numeric factors can be moved. A.__rmul__(B) with square matrices returns A*B, not B*A as documented.", "quantifier": "all numbers, all matrices of all sizes, all lists of matrices", "why_tests_cant": "The laws relate all triples of matrices of all sizes.", "anchors": ["rosemary/algebra/matrices/matrices.py:Matrix.__add__", "rosemary/algebra/matrices/matrices.py:Matrix.__radd__", "rosemary/algebra/matrices/matrices.py:Matrix.__sub__", "rosemary/algebra/matrices/matrices.py:Matrix.__rsub__", "rosemary/algebra/matrices/matrices.py:Matrix.__mul__", "rosemary/algebra/matrices/matrices.py:Matrix.__rmul__", "rosemary/algebra/matrices/matrices.py:Matrix.__neg__"]}
{"id": "C103", "title": "Laws of the arithmetic of polynomials", "statement": "Integer polynomials form an integral domain under the operators of Polynomial: + and * are commutative and associative, * distributes over +, numbers are constant polynomials, p - q is p + (-q) and undone by + q; degrees add and leading coefficients multiply under *, no product of nonzero polynomials is 0, and (p*q).quo_rem(q) is (p, 0) for q != 0, so factors cancel. For nonzero p: p**(a+b) = p**a * p**b, p**(a*b) = (p**a)**b, (p*q)**a = p**a * q**a. sum() of a list of polynomials and numbers has the sum of the values at every point. quo_rem by a number c raises ValueError unless c is a nonzero divisor of the leading coefficient, and otherwise divides every coefficient with remainder; pseudo_quo_rem by c never raises and gives remainder 0.", "quantifier": "all integer polynomials of all degrees, all exponents >= 0, all numbers, all lists of operands", "why_tests_cant": "The laws relate all triples of polynomials of all degrees.", "anchors": ["rosemary/algebra/polynomials/polynomials.py:Polynomial.__add__", "rosemary/algebra/polynomials/polynomials.py:Polynomial.__radd__", "rosemary/algebra/polynomials/polynomials.py:Polynomial.__sub__", "rosemary/algebra/polynomials/polynomials.py:Polynomial.__neg__", "rosemary/algebra/polynomials/polynomials.py:Polynomial.__mul__", "rosemary/algebra/polynomials/polynomials.py:Polynomial.__rmul__", "rosemary/algebra/polynomials/polynomials.py:Polynomial.__pow__", "rosemary/algebra/polynomials/polynomials.py:Polynomial.quo_rem", "rosemary/algebra/polynomials/polynomials.py:Polynomial.pseudo_quo_rem"]}
{"id": "C104", "title": "The layout of the heap is not observable", "statement": "dijkstra, dijkstra_iterator, prim, kruskal and chartres keep their queue in a list that heapq rearranges. For every implementation of heappush, heappop and heapify that keeps the entries and takes out one such that none left is smaller in Python's order of tuples, the five functions return, yield or raise the same: the result is a function of the arguments alone, and ties between entries are broken by the remaining components of the tuples. The algorithms of CPython's heapq are such an implementation.", "quantifier": "every heap implementation with these properties and its invariant, every graph, source, root and order of the vertex set, every n", "why_tests_cant": "A test runs with one heap implementation; graphs and heaps are unbounded.", "anchors": ["rosemary/graphs/algorithms/paths.py:dijkstra", "rosemary/graphs/algorithms/paths.py:dijkstra_iterator", "rosemary/graphs/algorithms/spanning_trees.py:prim", "rosemary/graphs/algorithms/spanning_trees.py:kruskal", "rosemary/number_theory/primes/sieves.py:chartres"]}
{"id": "C105", "title": "Arithmetic expressions in polynomials and integers", "statement": "An expression built with +, -, *, ** and unary minus from integers and Polynomial, PolyZZ and PolyQQ objects, in any order and with integers on either side, evaluates to an integer if it has no polynomial in it, and otherwise to a polynomial of the class and with the variable name of its first polynomial, without superfluous zeros, whose value at every x is the value of the expression; == and != decide whether two such results are equal as functions. Exceptions: polynomial - number adds the number, and a power of the zero polynomial is an IndexError. Division of a polynomial by a number gives the floor quotients and residues of the coefficients when the number divides the leading coefficient, and a ValueError otherwise.", "quantifier": "every expression of any depth, every coefficient list, class, variable name and exponent >= 0, every x", "why_tests_cant": "Expressions, degrees and coefficients are unbounded, and operator dispatch depends on the types of both operands at every node.", "anchors": ["rosemary/algebra/polynomials/polynomials.py:Polynomial", "rosemary/algebra/polynomials/polynomials.py:PolyZZ", "rosemary/algebra/polynomials/polynomials.py:PolyQQ"]}
