{
 "C73": {
  "note": "double precision rounding modelled exactly (Double_Model.v); optimality proved when the total value is at most 2^49 (weights and capacity up to 2^900); C73_large_values_refuted: with two items of value about 2^53 the rounded bound prunes the optimum"
 },
 "C59": {
  "note": "All four variants; integer weights, heapq as extraction of the least entry."
 },
 "C60": {
  "note": "Undirected graphs, as the Graph class builds them. The predecessor map is also shown to describe shortest paths."
 },
 "C61": {
  "note": "Negative loops are ignored by the code (refuted theorem); negative edges between distinct vertices raise ValueError."
 },
 "C62": {
  "note": "For s == t the code returns (inf, []) (stated as it is)."
 },
 "C08": {
  "note": "Odd m of either sign, even m raises. Quadratic reciprocity is proved from scratch (Gauss lemma and lattice points)."
 },
 "C11": {
  "note": "The random draws are a parameter: the result is exact for every draw sequence, and exists when one of the draws is a nonresidue (half of them are)."
 },
 "C13": {
  "note": "n >= 2 and a <> 0; n = 1 (IndexError) and a = 0 (endless loop) are refuted. Factorizations of intermediate moduli are a hypothesis, discharged below 10^12 by the _small theorems."
 },
 "C24": {
  "note": "phi and sigma for every n; moebius_list below 2^104 and tau_list below 2^52, where int(n**0.5) is near enough; also the generator moebius_range."
 },
 "C21": {
  "note": "Random choices are universally quantified. fermat: exact greatest divisor outside 2^52..2^60; C21_fermat_refuted exhibits twin primes whose product is returned unfactored in between. lehman: divisor > 1 always, least prime factor up to the cube root; C21_lehman_refuted shows a composite number returned as is."
 },
 "C22": {
  "note": "The returned vectors are a basis of the kernel (each kernel vector is a unique sum of them)."
 },
 "C75": {
  "note": "B (float expression) is an arbitrary function with value >= 2; rounds bounds the search for smooth values, so Diverge stands for a search that is still running. C75_cfrac_square_refuted: squares fail."
 },
 "C43": {
  "note": "Iteration orders of sets are arbitrary permutations. Labels are integers; each set is given by its iteration order, without repetitions. Empty sets are never part of a yielded cover, as the spec says."
 },
 "C46": {
  "note": "Integer distances (given matrix); the euclidean float matrix is not modelled. Exact methods proved optimal for arbitrary (asymmetric, negative) distances; two_opt needs symmetry (refuted without). steepest_ascent_two_opt with a given matrix reports a wrong cost (refuted); random_two_opt never returns on at most 3 points."
 },
 "C72": {
  "note": "is_square, is_power (integer and factorization arguments, with and without exponent), is_power2, is_factorial. Refuted corners: is_square(0) is falsy, is_power(1) is False, the empty factorization of 1 raises IndexError, factor(n, skip_power_detection=False) raises for n < 0. is_prime_power, is_totient, is_polygonal, is_powerful, is_fibonacci, is_perfect are stubs."
 },
 "C27": {
  "note": "Continued fractions of square roots (expansion, shortest period, recurrence, determinant), least Pell solutions for n = 1 and n = -1 with the exact non-existence criterion, completeness of the solution families for non-square N (refuted for square N > 1), pell_small and its companion for N^2 < D (Lagrange's theorem: the coprime solutions are convergents; three refutations for common factors, the guard and square N), the Farey search. exact_range excludes 2^52..2^60 where integer_sqrt is off by one (refuted there). The floating-point bound of pell_minimal_positive_solutions is a parameter: soundness holds for every value, completeness for the exact one. General (p + sqrt d)/q: C27_quadratic proves the expansion for q > 0, q | d - p^2 and an integer between the number and its conjugate; three refutations show each hypothesis is needed (negative q, no integer between the conjugates, scaling with a false period)."
 },
 "C26": {
  "note": "Legendre's method for all n; Meissel's with exact floating-point roots (hypothesis floats_exact on the roots taken as oracles); prime_sum and prime_count where integer_sqrt is exact (C04); pi_table. Lehmer's method characterised exactly: right when a prime lies between n//q and n^(3/4) for every prime q > n^(1/4), too small otherwise (e.g. for n = p^4-1, every prime p >= 37). Refuted: prime_sum2(0) = -1, prime_sum(0) raises IndexError, prime_count maps 1 to 1, pi_table raises UnboundLocalError for n < 2. lmo is right for all x; lmo_bit for x >= 8 when the integer parts of the three floating-point powers are right; it is too large by one at p^3 for every odd prime p (the exponent 0.33333333333333 is below 1/3) and raises IndexError below 8."
 },
 "C76": {
  "note": "Dirichlet hyperbola method with the shared cache modelled as a dictionary passed along; exact for n < 2^52 where int(n**0.5) is the integer root; sigma_sum is short by a at every a^2 - 1 with 2^26 < a <= 2^52 (refuted)."
 },
 "C77": {
  "note": "Complete for both functions; C77_longest_ap_refuted: without a three term progression not all longest (two term) progressions are returned, e.g. longest_ap([1, 2]) = []."
 },
 "C78": {
  "note": "C78_bernoulli_list_zero_refuted: bernoulli_list(0) raises IndexError. C78_largest_divisor_refuted: factor is looked up in a package whose __init__ is empty, so every call where b does not divide n raises AttributeError."
 },
 "C79": {
  "note": "Pentagonal number theorem proved (finite form, induction). C79_partition_list_zero_refuted: partition_list(0) raises IndexError. C79_rth_power_refuted: therefore rth_power_partition_number raises for every n >= 1 and r <> 1."
 },
 "C80": {
  "note": "Proved by double counting of pairs (rotation, fixed string). The weights argument is refuted: gcd is called with one argument."
 },
 "C81": {
  "note": "Invariant over the processed primes for the list of pairs (a, b); divisors, is_prime and factor_back are the proved models."
 },
 "C82": {
  "note": "Dictionary iteration is modelled with CPython's size check at every step; lists may grow while traversed. C82_raises_iff says exactly when the RuntimeError comes; in particular always if 8 divides n (refuted) and never if 4 does not. 1 is missing for n = 1 (refuted)."
 },
 "C83": {
  "note": "Random choice is a universally quantified function. LeftistHeap is represented by the multiset it holds (C29 proves that for integer contents), with the constructor's failure on fewer than two values. Two refuted theorems characterise all remaining graphs."
 },
 "C84": {
  "note": "The main loop is a step function over the local variables (s and s_color may be unbound); the invariant says which colourings the search still has to meet, up to a permutation of the colours, and the measure reads the colours as digits. Guarded by 'every vertex has a neighbour'; C84_korman_edgeless_refuted and C84_korman_isolated_refuted show that the guard is needed."
 },
 "C85": {
  "note": "The distance network has edges of weight inf between terminals that are not connected; Prim's algorithm on it is shown to be Prim's algorithm on the finite edges. C85_unreachable_refuted: with a terminal out of reach of the first one there is no Steiner tree, and the code returns a tree without it."
 },
 "C86": {
  "note": "C86_zero_weight_refuted: with weight zero allowed, the loop diverges for every fuel on a path of three vertices."
 },
 "C87": {
  "note": "C87_solve: all yields, no duplicates, iff a solution; C87_many_letters and C87_empty_word for the boundary cases. Letters are integers in the model."
 },
 "C88": {
  "note": "C88_solve rests on C43_algorithmx (every exact cover is yielded) and on the correspondence between exact covers of the 324 constraints and completions, proved in both directions."
 },
 "C89": {
  "note": "Guarded theorem plus the two refutations for graphs without edges; verbose output is not modelled."
 },
 "C90": {
  "note": "Density as the double returned, for at most 94906266 vertices."
 },
 "C91": {
  "note": "The value int(2*log(n)**2) is an arbitrary function. That it always bounds a witness (the extended Riemann hypothesis) is not claimed."
 },
 "C92": {
  "note": "When the degrees differ by one, h is a float from the second round on; what these rounds do is arbitrary (Polynomial([d]) or an exception)."
 },
 "C93": {
  "note": "Floats are represented by integers in the same order, with arbitrary addition and subtraction; the exact theorems instantiate them with those of Z. Distances are an arbitrary symmetric function (not computed from coordinates). The printing is not modelled."
 },
 "C94": {
  "note": "heapq is any pair of functions meeting the contract `heapq` of Gab_Spec.v: entries are kept, the popped one has the least weight, TypeError is raised only when two entries cannot be compared. prim, breadth_first_search_tree and NamedUnionFind are the models of C63, C56 and C31."
 },
 "C95": {
  "note": "A Latin square is a list of n rows, rows and columns being permutations of 0..n-1. The cover search is the model of C42."
 },
 "C96": {
  "note": "str(int) is the decimal conversion of the standard library. Refuted for QuadraticIrrational with q = 1 and p != 0."
 },
 "C97": {
  "note": "Files are texts of 8-bit characters; opening does not fail. Refuted for isolated vertices."
 },
 "C98": {
  "note": "Refuted: the docstring, and k = 6."
 },
 "C99": {
  "note": "Refinement between a model with a store of rows and the value model of C52/C53. Refuted for delete_row followed by a change."
 },
 "C100": {
  "note": "Arithmetic and order are parameters of the model; nan and OverflowError are not modelled. Refuted for a single point."
 },
 "C101": {
  "note": "Refinement between a model with a store of dictionaries and the value model of Graph_Model, which all theorems about graphs use."
 },
 "C102": {
  "note": "The laws follow from the entry formulas of C52. The docstring of __rmul__ and the use of sum() without a start value are refuted."
 },
 "C103": {
  "note": "Follows from the coefficient formulas of C47-C50 and associativity of convolution."
 },
 "C104": {
  "note": "The heaps of gabow are parameters of its model (C94)."
 },
 "C105": {
  "note": "Coefficients are integers; other coefficient types and negative exponents are not modelled."
 }
}