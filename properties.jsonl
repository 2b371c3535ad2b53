{"id": "C01", "title": "power is field exponentiation away from zero", "statement": "power(a,e) returns a^e for every non-zero field element a and every exponent e, negative exponents meaning powers of the inverse; for a = 0 it returns 0 for every e, in particular power(0,0)=0 and power(0,-1)=0 instead of 1 and an error.", "quantifier": "all fields, all elements a, all signed exponents e", "why_tests_cant": "the exponent and the field are unbounded, and the special-casing of 0 and 1 is only wrong at isolated points", "anchors": ["voproof/src/tools/mod.rs:power"]}
{"id": "C02", "title": "sparse polynomial evaluation", "statement": "evaluate_short(x,c) and evaluate_sparse(x,c,idx) return sum c_i x^i (resp. sum c_i x^idx_i) for every x other than 0; at x = 0 they lose the constant term.", "quantifier": "all points x, coefficient vectors and index vectors", "why_tests_cant": "holds for every length; the only exception is one point of a huge field", "anchors": ["voproof/src/tools/mod.rs:evaluate_short", "voproof/src/tools/mod.rs:evaluate_sparse", "voproof/src/tools/mod.rs:power"]}
{"id": "C03", "title": "sparse_mvp is the matrix-vector product", "statement": "sparse_mvp(h,k,rows,cols,vals,v) returns, when it returns, exactly the vector whose r-th entry is the sum over all entries (r,c,x) of x*v[c] (duplicate entries are summed); it panics exactly when h<=0, k<=0, len(v)<>k, or an entry that is used points outside the h x k matrix. The left product with the same arguments transposed is the product with the transpose.", "quantifier": "all matrices in coordinate form (any size, duplicates, unequal list lengths), all vectors", "why_tests_cant": "matrix dimensions and sparsity patterns are unbounded", "anchors": ["voproof/src/tools/mod.rs:sparse_mvp", "voproof/src/tools/mod.rs:define_left_sparse_mvp_vector"]}
{"id": "C04", "title": "stacking sparse matrices", "statement": "concat_matrix_vertically and concat_matrix_horizontally build the block matrices (A;B;C) and (d|A|B|C): multiplying by the result gives the concatenation of A v, B v, C v, respectively d*v0 + A v1 + B v2 + C v3.", "quantifier": "all sparse matrices with entries inside the declared size, all vectors", "why_tests_cant": "block offsets are only checked by examples of fixed size", "anchors": ["voproof/src/tools/mod.rs:concat_matrix_vertically", "voproof/src/tools/mod.rs:concat_matrix_horizontally"]}
{"id": "C05", "title": "power vector iterator", "statement": "power_iter(start,end,alpha,length,shifted) panics iff end<=start, and otherwise yields exactly end-start items, the item for position i being alpha^(i-shifted) if shifted<=i<shifted+length and 0 otherwise (for alpha<>0).", "quantifier": "all start,end,length,shifted and all non-zero alpha", "why_tests_cant": "iterator state machine over unbounded histories of next()", "anchors": ["voproof/src/tools/mod.rs:power_iter", "voproof/src/tools/mod.rs:PowerVectorIterator::next"]}
{"id": "C06", "title": "vector_power_mul is multiplication by a geometric polynomial", "statement": "vector_power_mul(v,alpha,n) returns the n+len(v)-1 coefficients of f_v(X)*(1+alpha X+...+alpha^(n-1)X^(n-1)).", "quantifier": "all vectors v, all alpha, all n>=1", "why_tests_cant": "streaming recurrence must agree with the product for all lengths", "anchors": ["voproof/src/tools/mod.rs:vector_power_mul"]}
{"id": "C07", "title": "power_power_mul is the product of two geometric polynomials", "statement": "power_power_mul(alpha,n,beta,m) returns the n+m-1 coefficients of the product of sum_{i<n} alpha^i X^i and sum_{j<m} beta^j X^j, including alpha=beta.", "quantifier": "all alpha, beta, n>=1, m>=1", "why_tests_cant": "recurrence with several mutable registers; all lengths", "anchors": ["voproof/src/tools/mod.rs:power_power_mul"]}
{"id": "C08", "title": "vector_reverse_omega and vector_poly_mul", "statement": "vector_poly_mul(u,v,omega) returns (up to trailing zeros) the coefficients of X^(|u|-1) f_u(omega/X) f_v(X); vector_reverse_omega(v,omega) is the coefficient vector of X^(|v|-1) f_v(omega/X).", "quantifier": "all vectors u, v, all omega", "why_tests_cant": "the identity of polynomials has to hold for all lengths and values", "anchors": ["voproof/src/tools/mod.rs:vector_reverse_omega", "voproof/src/tools/mod.rs:vector_poly_mul", "voproof/src/tools/mod.rs:vector_poly_mul_no_dict"]}
{"id": "C09", "title": "vector expression evaluation", "statement": "eval_vector_expression(z,i,e(i),n) and eval_vector_as_poly(v,z) return sum e(i) z^(i-1) resp. f_v(z), for every z including 0; expression_vector, add_expression_vector_to_vector, add_vector_to_vector and accumulate_vector compute the pointwise/prefix operations, and vector_index reads position i (1-based) and 0 outside.", "quantifier": "all n, z, expressions and vectors", "why_tests_cant": "all sizes", "anchors": ["voproof/src/tools/mod.rs:eval_vector_expression", "voproof/src/tools/mod.rs:eval_vector_as_poly", "voproof/src/tools/mod.rs:vector_index", "voproof/src/tools/mod.rs:accumulate_vector"]}
{"id": "C10", "title": "permutation vector from wires", "statement": "define_permutation_vector_from_wires(gamma,pairs,n) returns a rearrangement of gamma^0..gamma^(n-1). If the listed pairs form a forest (no pair closes a cycle), a vector of n values is constant on every wire pair iff it is invariant under the permutation. In general only 'pairs satisfied implies invariant' holds: a repeated pair cancels out.", "quantifier": "all n, all lists of in-range index pairs, all value vectors, gamma with distinct powers", "why_tests_cant": "permutation cycles merge and split depending on the whole history of swaps", "anchors": ["voproof/src/tools/mod.rs:define_permutation_vector_from_wires"]}
{"id": "C11", "title": "R1CS satisfaction check", "statement": "R1CS::satisfy(x,w) returns true iff (A z) o (B z) = C z for z=(1,x,w), for instances whose shape matches the declared sizes, where A,B,C are the matrices denoted by the coordinate lists; with mis-sized instance/witness or entries out of range it panics rather than answering.", "quantifier": "all R1CS systems, instances and witnesses", "why_tests_cant": "unbounded matrices", "anchors": ["voproof/src/cs/r1cs.rs:satisfy", "voproof/src/cs/r1cs.rs:get_size"]}
{"id": "C12", "title": "HPR satisfaction check", "statement": "HPR::satisfy returns true iff the Hadamard-product relation (A w1 + B w2 + C w3 + d = instance padding, w1 o w2 = w3) stated in the module holds for every instance and witness of the declared sizes.", "quantifier": "all HPR systems, instances and witnesses", "why_tests_cant": "unbounded sizes", "anchors": ["voproof/src/cs/hpr.rs:satisfy"]}
{"id": "C13", "title": "random HPR generator only yields satisfied systems", "statement": "generate_random_hpr_instance returns an (HPR, instance, witness) triple with satisfy = true for every stream of random values and every admissible size.", "quantifier": "all random streams, all sizes", "why_tests_cant": "random tests sample a few seeds only", "anchors": ["voproof/src/cs/hpr.rs:generate_random_hpr_instance"]}
{"id": "C14", "title": "sizes reported by constraint systems", "statement": "get_size of R1CS, HPR and POV reports the numbers of non-zero entries of each matrix, the input size and the dimensions. For HPR this fails: bdensity and cdensity are always reported as the density of A.", "quantifier": "all constraint systems", "why_tests_cant": "all sizes", "anchors": ["voproof/src/cs/hpr.rs:get_size", "voproof/src/cs/r1cs.rs:get_size", "voproof/src/cs/pov.rs:get_size"]}
{"id": "C15", "title": "POV satisfaction check", "statement": "POV::satisfy(x,w) returns true iff every multiplication gate, addition gate and constant gate holds, every wired pair of positions carries equal values, and every public position carries the instance value.", "quantifier": "all POV systems, instances, witnesses", "why_tests_cant": "all circuit shapes", "anchors": ["voproof/src/cs/pov.rs:satisfy", "voproof/src/cs/pov.rs:satisfy_gate_logics", "voproof/src/cs/pov.rs:satisfy_wiring", "voproof/src/cs/pov.rs:satisfy_instance"]}
{"id": "C16", "title": "circuit builder preserves the meaning of expressions", "statement": "After any sequence of builder calls (inputs, add_vars, mul_vars, const_var, assert_equal ...) every variable evaluates, for all input assignments, to the value of the expression the user wrote; the operator caches (commutative add/mul, constants) never change the value denoted by a returned variable.", "quantifier": "all builder call histories and all input assignments", "why_tests_cant": "histories of builder calls and cache states are unbounded", "anchors": ["voproof/src/cs/circuit/fan_in_two.rs:add_vars", "voproof/src/cs/circuit/fan_in_two.rs:mul_vars", "voproof/src/cs/circuit/fan_in_two.rs:const_var", "voproof/src/cs/circuit/fan_in_two.rs:evaluate"]}
{"id": "C17", "title": "builder errors", "statement": "Global inputs can only be created while no gate exists (later attempts return an error and leave the circuit unchanged), evaluation and marking follow the documented order, and mark_as_complete fails exactly when there is no input, some variable is not connected to a gate, or every variable is an input.", "quantifier": "all builder call histories", "why_tests_cant": "all histories", "anchors": ["voproof/src/cs/circuit/fan_in_two.rs:add_global_input_variable", "voproof/src/cs/circuit/fan_in_two.rs:mark_as_complete"]}
{"id": "C18", "title": "wire layout", "statement": "The global wire index layout used by get_wiring, get_witness and the public indices maps distinct wires of a circuit to distinct positions and every position lies in [0, 3*(mul+add+const gates)).", "quantifier": "all circuits, all wires", "why_tests_cant": "all gate counts", "anchors": ["voproof/src/cs/circuit/fan_in_two.rs:get_wire_global_index", "voproof/src/cs/circuit/fan_in_two.rs:get_offset"]}
{"id": "C19", "title": "honest circuit witness satisfies the derived POV", "statement": "For every circuit built through the API, after a successful evaluation whose assertions hold, the witness of get_witness satisfies all gate equations and all wirings of the POV obtained from the circuit, and the public instance matches.", "quantifier": "all builder histories, all inputs", "why_tests_cant": "all circuits", "anchors": ["voproof/src/cs/circuit/fan_in_two.rs:get_witness", "voproof/src/cs/circuit/fan_in_two.rs:get_wiring", "voproof/src/cs/pov.rs:From<FanInTwoCircuit>"]}
{"id": "C20", "title": "R1CS to POV conversion is faithful", "statement": "For every R1CS whose conversion does not panic and every iteration order of the internal hash map, the converted POV triple is satisfied iff the R1CS instance/witness satisfies the R1CS.", "quantifier": "all R1CS systems, instances, witnesses and hash-map iteration orders", "why_tests_cant": "iteration order is nondeterministic and sizes are unbounded", "anchors": ["voproof/src/cs/circuit/mod.rs:From<R1CS>", "voproof/src/cs/pov.rs:pov_triple_from_r1cs_triple"]}
{"id": "C21", "title": "R1CS to POV conversion failures and nondeterminism", "statement": "The conversion panics for some well-formed R1CS systems (e.g. an unused column or a system with only the constant column), and the produced POV can depend on hash-map iteration order, so the POV of the key and the POV of the proof can differ.", "quantifier": "all R1CS systems and map iteration orders", "why_tests_cant": "depends on hash-map iteration order that a test cannot control", "anchors": ["voproof/src/cs/circuit/mod.rs:From<R1CS>"]}
{"id": "C22", "title": "duplicate constraints vanish from the permutation argument", "statement": "Two identical rows in an R1CS yield the same asserted wire pair twice, and the swap-based permutation vector then no longer enforces that constraint: a violating witness is invariant under the permutation.", "quantifier": "exists a circuit and a witness", "why_tests_cant": "a completeness-style test never exercises invalid witnesses", "anchors": ["voproof/src/cs/circuit/mod.rs:From<R1CS>", "voproof/src/tools/mod.rs:define_permutation_vector_from_wires"]}
{"id": "C23", "title": "KZG setup", "statement": "setup(d) fails exactly when d<1 and otherwise returns the powers g, beta g, ..., beta^d g (max degree d) together with h and beta h.", "quantifier": "all degrees and trapdoors", "why_tests_cant": "all degrees", "anchors": ["voproof/src/kzg/mod.rs:setup"]}
{"id": "C24", "title": "KZG commitment is evaluation at the trapdoor", "statement": "commit / commit_with_coefficients of a polynomial f within the degree bound returns f(beta) g - hence commitments are linear in f and independent of leading/trailing zero representation -, and returns an error for polynomials longer than the key.", "quantifier": "all polynomials, keys, trapdoors", "why_tests_cant": "all degrees, all values", "anchors": ["voproof/src/kzg/mod.rs:commit", "voproof/src/kzg/mod.rs:commit_with_coefficients", "voproof/src/kzg/mod.rs:check_degree_is_too_large", "voproof/src/kzg/mod.rs:skip_leading_zeros_and_convert_to_bigints"]}
{"id": "C25", "title": "KZG single opening completeness", "statement": "open(f,z) of a polynomial of degree >= 1 within the bound yields a proof that check accepts for (commit f, z, f(z)); for constant polynomials open panics.", "quantifier": "all polynomials, points, keys", "why_tests_cant": "all degrees", "anchors": ["voproof/src/kzg/mod.rs:open", "voproof/src/kzg/mod.rs:check", "voproof/src/kzg/mod.rs:compute_witness_polynomial"]}
{"id": "C26", "title": "KZG check equation", "statement": "check accepts (C,z,y,w) iff C - y g = (beta - z) w; in particular for a fixed commitment and witness at most one value y is accepted at each point.", "quantifier": "all commitments, points, values, proofs", "why_tests_cant": "universally quantified over group elements", "anchors": ["voproof/src/kzg/mod.rs:check"]}
{"id": "C27", "title": "KZG batch opening completeness", "statement": "batch_open of two lists of polynomials at two points with honest evaluations produces two witnesses accepted by batch_check with the same combination challenges, for every verifier randomizer.", "quantifier": "all polynomial lists, points, challenges, randomizers", "why_tests_cant": "all sizes and challenges", "anchors": ["voproof/src/kzg/mod.rs:batch_open", "voproof/src/kzg/mod.rs:batch_check"]}
{"id": "C28", "title": "KZG batch verification soundness over the randomizer", "statement": "For any batch claim in which at least one of the two individual equations fails, at most one randomizer value makes batch_check accept; conversely if the randomizer is known in advance any claim at two distinct points can be made to verify.", "quantifier": "all commitments, claims, witnesses, randomizers", "why_tests_cant": "adversarial inputs cannot be enumerated", "anchors": ["voproof/src/kzg/mod.rs:batch_check"]}
{"id": "C29", "title": "vector commitments", "statement": "vector_to_commitment(v,degree) commits to X^s f_v with s = degree-len(v) if len(v)<=degree and s=0 otherwise; scalar_to_commitment(c) commits to c; both are linear.", "quantifier": "all vectors and degrees", "why_tests_cant": "all lengths", "anchors": ["voproof/src/snarks/mod.rs:vector_to_commitment", "voproof/src/snarks/mod.rs:scalar_to_commitment"]}
{"id": "C30", "title": "Fibonacci argument completeness", "statement": "For every Fibonacci instance of length n>=2 that satisfies the relation, every hash function, randomness and trapdoor outside explicitly listed bad challenge values, index and prove succeed and verify accepts.", "quantifier": "all n, instances, blinding, challenges", "why_tests_cant": "the challenge and randomness space is huge", "anchors": ["voproof/src/snarks/fibonacci.rs:prove", "voproof/src/snarks/fibonacci.rs:verify"]}
{"id": "C31", "title": "Fibonacci argument binds its public instance", "statement": "A proof accepted for (a,b,c) must not be accepted for a different instance. This fails: the instance is not hashed into the challenges and a proof stays valid for every (a',b',c') with the same value of one linear combination.", "quantifier": "all proofs and instances", "why_tests_cant": "needs adversarial instance choice", "anchors": ["voproof/src/snarks/fibonacci.rs:verify"]}
{"id": "C32", "title": "POV (prover efficient) argument completeness", "statement": "For every satisfied POV triple with distinct public positions, every hash function, randomness and trapdoor outside explicitly listed bad challenge values, index and prove succeed and verify accepts.", "quantifier": "all POV systems, witnesses, blinding, challenges", "why_tests_cant": "the challenge and randomness space is huge", "anchors": ["voproof/src/snarks/voproof_pov_prover_efficient.rs:prove", "voproof/src/snarks/voproof_pov_prover_efficient.rs:verify"]}
{"id": "C33", "title": "satisfied circuits the prover-efficient POV argument cannot prove", "statement": "Three classes of triples for which POV::satisfy is true although no proof comes out: (1) a public position listed twice (the prover writes it once while the evaluation counts it twice), (2) a public position that is the output of a constant gate (the instance check does not include the constants), (3) circuits without constants (index aborts when committing to the empty vector).", "quantifier": "(1),(2): exists an instance; (3): all circuits without constants, all parameters", "why_tests_cant": "tests use distinct positions on ordinary gates and at least one constant", "anchors": ["voproof/src/snarks/voproof_pov_prover_efficient.rs:prove", "voproof/src/tools/mod.rs:define_sparse_vector", "voproof/src/tools/mod.rs:eval_sparse_vector"]}
{"id": "C34", "title": "integer/field conversion", "statement": "to_int(to_field(i)) = i for every u64 i below the field modulus; to_field panics for i >= modulus, try_to_int returns Some exactly for elements whose canonical representative fits in 64 bits, and to_int panics exactly when try_to_int is None.", "quantifier": "all u64 values, all prime fields", "why_tests_cant": "2^64 values", "anchors": ["voproof/src/tools/mod.rs:to_field", "voproof/src/tools/mod.rs:to_int", "voproof/src/tools/mod.rs:try_to_int"]}
{"id": "C35", "title": "key serialization round trip", "statement": "Deserializing the serialization of UniversalParams, VerifierKey, Commitment or Proof gives back the same object, consumes exactly the written bytes and leaves trailing bytes untouched.", "quantifier": "all keys and all trailing bytes", "why_tests_cant": "all sizes", "anchors": ["voproof/src/kzg/data_structures.rs"]}
{"id": "C36", "title": "field element formatting is faithful", "statement": "fmt_field prints n, -n or the raw representation; the printed form always determines the element (n or -n read back in the field is the element), so two different elements never print the same.", "quantifier": "all field elements", "why_tests_cant": "2^255 elements", "anchors": ["voproof/src/tools/mod.rs:fmt_field"]}
{"id": "C37", "title": "adding a signed integer to a field element", "statement": "custom_add_fi(a,b) returns a+b for non-negative b; for negative b the cast to u64 makes it return a+b+2^64 instead.", "quantifier": "all field elements and all i64", "why_tests_cant": "2^64 values", "anchors": ["voproof/src/tools/mod.rs:custom_add_fi"]}
{"id": "C38", "title": "sparse vectors and their evaluation agree", "statement": "define_sparse_vector builds the vector with the listed values at the listed positions, and eval_sparse_vector evaluates exactly that vector, whenever positions are distinct and in range and the point is non-zero; with a repeated position the two disagree.", "quantifier": "all position/value lists, points", "why_tests_cant": "all lists", "anchors": ["voproof/src/tools/mod.rs:define_sparse_vector", "voproof/src/tools/mod.rs:eval_sparse_vector", "voproof/src/tools/mod.rs:define_sparse_zero_one_vector"]}
{"id": "C39", "title": "vector macro library", "statement": "linear_combination, power_linear_combination, multi_delta, zero_pad, hadamard product, the (mu-u)(nu-w) inverse vector, vector equality and density compute exactly the mathematical operation their name states, and zero_pad panics exactly if the vector is longer than the target.", "quantifier": "all vectors and parameters", "why_tests_cant": "all lengths", "anchors": ["voproof/src/tools/mod.rs:linear_combination", "voproof/src/tools/mod.rs:power_linear_combination", "voproof/src/tools/mod.rs:zero_pad", "voproof/src/tools/mod.rs:define_hadamard_vector", "voproof/src/tools/mod.rs:define_uwinverse_vector", "voproof/src/tools/mod.rs:check_vector_eq", "voproof/src/tools/mod.rs:compute_density"]}
{"id": "C40", "title": "conversion from arkworks constraint systems preserves the matrices", "statement": "R1CS::from(ArkR1CS) produces coordinate lists denoting exactly the three input matrices, with ncols = instance + witness variables and input_size = instance - 1; it panics if there is no instance variable.", "quantifier": "all constraint matrices", "why_tests_cant": "all systems", "anchors": ["voproof/src/cs/r1cs.rs:From<ArkR1CS>"]}
{"id": "C41", "title": "degree bound checks", "statement": "check_degrees_and_bounds accepts a labelled polynomial exactly if it has no degree bound, or its bound is one of the enforced bounds, is at least the degree of the polynomial and at most the maximum degree.", "quantifier": "all degrees, bounds and sorted lists of enforced bounds", "why_tests_cant": "all lists and degrees", "anchors": ["voproof/src/kzg/mod.rs:check_degrees_and_bounds"]}
{"id": "C42", "title": "prepared keys and commitments", "statement": "PreparedVerifierKey::prepare and PreparedCommitment::prepare hold exactly the doublings P, 2P, 4P, ... (as many as the field has bits).", "quantifier": "all points and bit sizes", "why_tests_cant": "all group elements", "anchors": ["voproof/src/kzg/data_structures.rs:PreparedVerifierKey::prepare", "voproof/src/kzg/data_structures.rs:PreparedCommitment::prepare"]}
{"id": "C43", "title": "The Fibonacci prover refuses false statements", "statement": "If the Fibonacci prover returns a proof for a sequence of at least two steps, the sequence follows the recurrence up to its last but one member and the last recurrence and the claimed result hold in the combination (w_n - c) + alpha (w_n - expected) = 0 (factors exchanged for n = 2), unless alpha = 0; so for a false statement a proof is returned for at most two values of the challenge alpha.", "quantifier": "all sequences, multipliers, instances, hash functions, randomizers, trapdoors", "why_tests_cant": "every wrong witness and every challenge must be covered", "anchors": ["voproof/src/snarks/fibonacci.rs:prove"]}
{"id": "C44", "title": "Sequences of length one", "statement": "A true statement about one step (n = 1) should be provable. It is not: the prover only succeeds when its own randomizers satisfy alpha^2 (d0 - d1 - b) = alpha^4 (d0 - d1), and never with the smallest parameters that index accepts.", "quantifier": "all instances, hash functions, randomizers", "why_tests_cant": "the failure is at one size only and depends on random values", "anchors": ["voproof/src/snarks/fibonacci.rs:prove", "voproof/src/snarks/fibonacci.rs:index"]}
{"id": "C45", "title": "POV argument completeness", "statement": "For every satisfied POV triple with distinct public positions (in any part of the circuit, constant gates included), every hash function, randomness and trapdoor outside explicitly listed bad challenge values, prove succeeds and verify accepts; every proof prove returns is accepted, whatever witness was used; index succeeds for every circuit with a constant gate when the parameters have at least 6n - n_mul + 1 powers.", "quantifier": "all POV systems, witnesses, blinding, challenges", "why_tests_cant": "the challenge and randomness space is huge", "anchors": ["voproof/src/snarks/voproof_pov.rs:index", "voproof/src/snarks/voproof_pov.rs:prove", "voproof/src/snarks/voproof_pov.rs:verify"]}
{"id": "C46", "title": "satisfied circuits the POV argument cannot prove", "statement": "Triples for which POV::satisfy is true although no proof comes out: a public position listed twice, and circuits without constants (index aborts when committing to the empty vector).", "quantifier": "first: exists an instance; second: all circuits without constants, all parameters", "why_tests_cant": "tests use distinct positions and at least one constant", "anchors": ["voproof/src/snarks/voproof_pov.rs:index", "voproof/src/snarks/voproof_pov.rs:prove"]}
{"id": "C47", "title": "an accepted opening binds the prover to the committed polynomials", "statement": "If a commitment is to a polynomial p of degree at most d, an accepted opening of it at z to y means p(z) = y, except for at most d+1 values of the trapdoor; an accepted batch opening means that all claimed values are right, except for at most (number of polynomials - 1) values of the combination challenge, 2(d+1) trapdoors and one randomizer.", "quantifier": "all polynomials, opening polynomials, points, values, generators", "why_tests_cant": "an attacker chooses polynomials and values after seeing earlier messages; only counting over all of them shows it", "anchors": ["voproof/src/kzg/mod.rs:check", "voproof/src/kzg/mod.rs:batch_check"]}
{"id": "C48", "title": "soundness of the POV argument", "statement": "For a circuit whose wires contain no cycle and for distinct public positions: whatever polynomials the prover commits to in each round, up to explicitly bounded numbers of unlucky challenges, trapdoors and randomizers, an accepted proof means that the first 3n coefficients of the first committed polynomial satisfy every gate, wire, constant and public value. The hypotheses are needed: a wire listed twice in a row has no effect on the keys, and for a public position listed twice with different values there is an accepted proof although nothing satisfies the instance.", "quantifier": "all circuits, public inputs, all polynomials chosen adaptively by the prover, all hash functions", "why_tests_cant": "soundness quantifies over all provers", "anchors": ["voproof/src/snarks/voproof_pov.rs:index", "voproof/src/snarks/voproof_pov.rs:verify"]}
{"id": "C49", "title": "what the prover-efficient POV argument enforces", "statement": "For a circuit whose wires contain no cycle and for distinct public positions that are not outputs of constant gates: up to explicitly bounded numbers of unlucky challenges, an accepted proof means that the committed values respect all wires, all public values and every multiplication gate whose right input is not zero. Addition gates, constant gates and multiplications by zero should be enforced as well and are not: for any values that violate them, a prover that deviates in its first two vectors gets a proof that is always accepted, e.g. for the false statement 2*3+5 = 12.", "quantifier": "all circuits, public inputs, all polynomials chosen adaptively by the prover, all hash functions; the attack: all circuits and values", "why_tests_cant": "tests only run the honest prover on satisfied circuits", "anchors": ["voproof/src/snarks/voproof_pov_prover_efficient.rs:prove", "voproof/src/snarks/voproof_pov_prover_efficient.rs:verify"]}
{"id": "C50", "title": "challenges depend on every earlier message", "statement": "Every challenge of the POV, R1CS and HPR arguments is the hash of a byte string that determines the index commitments, the public instance and all messages sent before; for the range-check argument, which has no instance, it determines the index commitment and the messages; for the Fibonacci argument it determines the index commitment and the messages but not the instance. No two challenges of a run hash the same bytes. Vectors are length-prefixed, so that different item sequences never share an encoding.", "quantifier": "all keys, instances with fewer than 2^64 entries, messages; all injective fixed-length encodings of field elements and points", "why_tests_cant": "collisions of encodings can hide in any pair of inputs", "anchors": ["voproof/src/tools/mod.rs:to_bytes!", "voproof/src/tools/mod.rs:get_randomness_from_hash!", "voproof/src/snarks/voproof_pov.rs:verify", "voproof/src/snarks/voproof_pov_prover_efficient.rs:verify", "voproof/src/snarks/fibonacci.rs:verify", "voproof/src/snarks/voproof_hpr.rs:verify", "voproof/src/snarks/range_check.rs:verify"]}
{"id": "C51", "title": "R1CS argument completeness", "statement": "For every satisfied R1CS with at least three matrix entries per row on average and 4*rows <= columns + entries + 1, every hash function, randomness and trapdoor outside explicitly listed unlucky challenge values, prove succeeds and verify accepts; every proof prove returns is accepted, whatever witness was used; index succeeds when the coordinate lists have matching lengths, there is an entry and the parameters are large enough.", "quantifier": "all R1CS systems, assignments, blinding, challenges, hash functions, trapdoors", "why_tests_cant": "the challenge and randomness space is huge", "anchors": ["voproof/src/snarks/voproof_r1cs.rs:index", "voproof/src/snarks/voproof_r1cs.rs:prove", "voproof/src/snarks/voproof_r1cs.rs:verify"]}
{"id": "C52", "title": "satisfied systems the R1CS argument cannot prove", "statement": "With fewer than three matrix entries per row proving always panics, and so does an assignment of the wrong length. A satisfied system should be provable: with many rows (4*rows > columns + entries + 1) it is not, because a product of the prover's polynomials is longer than the room reserved for it, and prove returns an error.", "quantifier": "first two: all systems, assignments, parameters; third: exists a system", "why_tests_cant": "depends on the shape of the system, tests use one shape", "anchors": ["voproof/src/snarks/voproof_r1cs.rs:prove", "voproof/src/snarks/voproof_r1cs.rs:index"]}
{"id": "C53", "title": "the R1CS argument does not enforce the declared number of inputs", "statement": "verify should only accept instances with the declared number of entries. It does not look at the length: entries after the declared number are tied to nothing, missing entries count as zero, and such instances are proved and accepted all the same.", "quantifier": "all systems and instances of any length", "why_tests_cant": "tests use instances of the right length", "anchors": ["voproof/src/snarks/voproof_r1cs.rs:prove", "voproof/src/snarks/voproof_r1cs.rs:verify"]}
{"id": "C54", "title": "soundness of the R1CS argument", "statement": "For a well-formed R1CS with at least three matrix entries per row: whatever polynomials the prover commits to in each round, knowing the challenges so far, up to explicitly bounded numbers of unlucky challenges, trapdoors and randomizers, an accepted proof means that the committed polynomial contains a witness that R1CS::satisfy accepts for the public inputs.", "quantifier": "all R1CS systems, public inputs, all polynomials chosen adaptively by the prover, all hash functions", "why_tests_cant": "soundness quantifies over all provers", "anchors": ["voproof/src/snarks/voproof_r1cs.rs:index", "voproof/src/snarks/voproof_r1cs.rs:verify", "voproof/src/cs/r1cs.rs:satisfy"]}
{"id": "C55", "title": "prover-efficient R1CS argument completeness", "statement": "For every satisfied R1CS with at least three matrix entries per row on average, no more columns than matrix entries and fewer public inputs than twice the number of rows, every hash function, randomness and trapdoor outside explicitly listed unlucky events, prove succeeds and verify accepts; every proof prove returns is accepted, whatever witness was used; index succeeds when the coordinate lists have matching lengths, there is an entry and the parameters are large enough.", "quantifier": "all R1CS systems, assignments, blinding, challenges, hash functions, trapdoors", "why_tests_cant": "the challenge and randomness space is huge", "anchors": ["voproof/src/snarks/voproof_r1cs_prover_efficient.rs:index", "voproof/src/snarks/voproof_r1cs_prover_efficient.rs:prove", "voproof/src/snarks/voproof_r1cs_prover_efficient.rs:verify"]}
{"id": "C56", "title": "satisfied systems the prover-efficient R1CS argument cannot prove", "statement": "With fewer than three matrix entries per row, with more columns than matrix entries, or with an assignment of the wrong length, proving always panics. With as many public inputs as twice the rows or more, a satisfied system can be unprovable: prove returns an error. The declared number of inputs is not enforced: when the witness is all zero (or empty, the whole assignment being passed as the instance) an instance of any length is proved and accepted.", "quantifier": "all systems, assignments, parameters; the unprovable one: exists a system", "why_tests_cant": "depends on the shape of the system, tests use one shape", "anchors": ["voproof/src/snarks/voproof_r1cs_prover_efficient.rs:prove", "voproof/src/snarks/voproof_r1cs_prover_efficient.rs:index", "voproof/src/snarks/voproof_r1cs_prover_efficient.rs:verify"]}
{"id": "C57", "title": "soundness of the prover-efficient R1CS argument", "statement": "For a well-formed R1CS with at least three matrix entries per row and no more columns than entries: whatever polynomials the prover commits to in each round, knowing the challenges so far, up to explicitly bounded numbers of unlucky challenges, trapdoors and randomizers, an accepted proof means that the committed polynomial contains a witness that R1CS::satisfy accepts for the public inputs; if the instance has another length than declared, its entries are added to the committed witness and the sum satisfies the system.", "quantifier": "all R1CS systems, public inputs, all polynomials chosen adaptively by the prover, all hash functions", "why_tests_cant": "soundness quantifies over all provers", "anchors": ["voproof/src/snarks/voproof_r1cs_prover_efficient.rs:index", "voproof/src/snarks/voproof_r1cs_prover_efficient.rs:verify", "voproof/src/cs/r1cs.rs:satisfy"]}
{"id": "C58", "title": "the range-check prover returns no proofs", "statement": "For values in the range, prove should return a proof that verify accepts. Every proof prove returns is accepted, but it returns none: for every nonempty lookup and every witness, prove returns a proof only if one of its blinding scalars or one of two challenges is zero (the product of its polynomials has a coefficient for which no room is reserved). With more values than the range has members, the key moreover commits to a displaced table, and prove returns a proof only if one more product vanishes.", "quantifier": "all lookup and range sizes, witnesses, blinding scalars, hash functions, trapdoors", "why_tests_cant": "holds for every witness and all but a negligible part of the randomness; a test can only show one failing run", "anchors": ["voproof/src/snarks/range_check.rs:index", "voproof/src/snarks/range_check.rs:prove", "voproof/src/snarks/range_check.rs:verify"]}
{"id": "C59", "title": "soundness of the range-check argument", "statement": "Whatever polynomials the prover commits to in each round, knowing the challenges so far, up to explicitly bounded numbers of unlucky challenges, trapdoors and randomizers, an accepted proof means that each of the first lookup_size coefficients of the committed value polynomial is one of 0, ..., range_size - 1 (for lookups smaller than the characteristic). With lookup_size > range_size the accepted values are even below max(1, 2*range_size - lookup_size), so that not all values of the range can be used.", "quantifier": "all lookup and range sizes, all polynomials chosen adaptively by the prover, all hash functions", "why_tests_cant": "soundness quantifies over all provers", "anchors": ["voproof/src/snarks/range_check.rs:index", "voproof/src/snarks/range_check.rs:verify"]}
{"id": "C60", "title": "completeness of the HPR argument", "statement": "For a well-shaped Hadamard product relation with at least as many entries as rows and B, C together having twice as many entries as A, and a satisfying instance and witness that is not constant in the commitment, prove returns a proof that verify accepts, unless a challenge hits one of the listed values or the combined polynomial is zero. Whatever the witness, a proof that prove returns is accepted. index succeeds when the coordinate lists have matching lengths and the parameters are large enough.", "quantifier": "all systems, instances, witnesses, blinding scalars, hash functions, trapdoors and groups", "why_tests_cant": "holds for all sizes and all hash functions; tests run single systems", "anchors": ["voproof/src/snarks/voproof_hpr.rs:index", "voproof/src/snarks/voproof_hpr.rs:prove", "voproof/src/snarks/voproof_hpr.rs:verify"]}
{"id": "C61", "title": "where the HPR argument and the HPR satisfaction check disagree", "statement": "Satisfied systems that cannot be proved: if three times the entries of A plus those of d are fewer than the rows, prove panics; if B and C do not together have twice as many entries as A (the sizes report the entries of A three times), there are satisfied systems whose proving fails, both with fewer and with more entries than claimed. A witness longer than the padded vector panics. The three witness parts only count as one list: parts of wrong lengths that the satisfaction check refuses are proved and accepted if their concatenation is right.", "quantifier": "all systems and witnesses (panics, concatenation); existence of systems (failures)", "why_tests_cant": "panics quantify over all witnesses, challenges and randomness", "anchors": ["voproof/src/snarks/voproof_hpr.rs:prove", "voproof/src/cs/hpr.rs:get_size"]}
{"id": "C62", "title": "soundness of the HPR argument and exactly what it enforces", "statement": "For keys of a well-shaped Hadamard product relation, apart from few challenges and trapdoors an accepted proof made of commitments to polynomials enforces a relation on the committed assignment: w1 w2 = w3, and the rows of the system restricted to the first 3|A|+|d| listed entries, with further instance entries added to the assignment. If B and C together have at most twice the entries of A and the instance is no longer than the number of rows, this is the satisfaction of the system. Conversely any committed assignment meeting the enforced relation can be proved, so systems with more entries in B and C, and instances that are too long, have accepted proofs of statements that no witness satisfies.", "quantifier": "all systems, instances, committed polynomials, challenges, groups (soundness and its converse); existence of systems (refutations)", "why_tests_cant": "quantifies over every adversarial choice of polynomials and all challenges", "anchors": ["voproof/src/snarks/voproof_hpr.rs:verify", "voproof/src/snarks/voproof_hpr.rs:index", "voproof/src/cs/hpr.rs:get_size"]}
{"id": "C63", "title": "proofs let anyone test guesses of the witness", "statement": "Each of the provers for POV, POV prover-efficient, R1CS, R1CS prover-efficient and HPR blinds the committed vector of its witness with a single random scalar and reveals the value of the extended polynomial at one point. From the public keys, the instance and a proof anyone can test a guessed witness: the test accepts the true witness for every hash function and all blinding scalars, and rejects any witness with a different committed vector unless the revealed point is one of n values. So the proofs are not witness hiding or zero knowledge: a witness from a small set can be found by trying.", "quantifier": "all systems, instances, witnesses, hash functions, blinding scalars, trapdoors, groups", "why_tests_cant": "quantifies over all witnesses, all blinding scalars and all guesses", "anchors": ["voproof/src/snarks/voproof_pov.rs:prove", "voproof/src/snarks/voproof_pov_prover_efficient.rs:prove", "voproof/src/snarks/voproof_r1cs.rs:prove", "voproof/src/snarks/voproof_r1cs_prover_efficient.rs:prove", "voproof/src/snarks/voproof_hpr.rs:prove"]}
{"id": "C64", "title": "the arithmetic gates of the circuit builder enforce exactly their equation", "statement": "In every circuit that can be built, poly_gate, constrain_to_constant, assert_equal, boolean_gate, arithmetic_gate and add_witness_to_circuit_description restrict the satisfying assignments exactly to those with the documented equation, and the values stored for the prover satisfy the new circuit exactly when they satisfied the old one and have the equation. They succeed exactly when their variables exist. An output computed by arithmetic_gate is right for the output coefficients 1 and -1; for any other coefficient q with q^2 <> 1 the stored value violates the gate unless the sum is zero (finding).", "quantifier": "all fields of odd prime order, circuits built by any sequence of calls, variables, coefficients, public inputs, assignments", "why_tests_cant": "quantifies over all circuits and all assignments, including those of a cheating prover", "anchors": ["plonk-core/src/constraint_system/composer.rs:poly_gate", "plonk-core/src/constraint_system/composer.rs:constrain_to_constant", "plonk-core/src/constraint_system/composer.rs:assert_equal", "plonk-core/src/constraint_system/arithmetic.rs:arithmetic_gate", "plonk-core/src/constraint_system/boolean.rs:boolean_gate"]}
{"id": "C65", "title": "tests, selections, affine transformations and lookups compute what they say", "statement": "is_zero_with_output and is_eq_with_output return a variable that must be 1 or 0 as documented; conditional_select, conditional_select_zero and conditional_select_one return the blend of their arguments (the selected one when the bit is 0 or 1); the full and partial affine transformations return the solution of their equation; lookup_gate holds exactly for the rows of a non-empty table, and only with public input zero. The output is determined by the inputs for every prover, and the stored values of an honest prover remain satisfying.", "quantifier": "all fields of odd prime order, circuits, variables, tables, assignments", "why_tests_cant": "quantifies over all assignments of a cheating prover", "anchors": ["plonk-core/src/constraint_system/composer.rs:is_zero_with_output", "plonk-core/src/constraint_system/composer.rs:is_eq_with_output", "plonk-core/src/constraint_system/composer.rs:conditional_select", "plonk-core/src/constraint_system/hash.rs:full_affine_transform_gate", "plonk-core/src/constraint_system/lookup.rs:lookup_gate"]}
{"id": "C66", "title": "range gates accept exactly the values of the given number of bits", "statement": "range_gate succeeds exactly for existing variables and even positive numbers of bits up to the size of the integers of the field; the resulting gates can be satisfied exactly when the value of the variable, as an integer, has at most that many bits, and the stored values of an honest prover satisfy them in the same case.", "quantifier": "all fields of odd prime order, circuits, variables, numbers of bits, assignments", "why_tests_cant": "the number of gates is unbounded; quantifies over all accumulator values of a cheating prover", "anchors": ["plonk-core/src/constraint_system/range.rs:range_gate"]}
{"id": "C67", "title": "and_gate and xor_gate do not bind their inputs", "statement": "For an honest prover and integers of 256 bits the output of and_gate and xor_gate is the bitwise operation on the low bits of the inputs. But the gates never read the input variables: for every satisfying assignment and every number of the given length there is a satisfying assignment of the extended circuit that agrees with it and has that number as output, so a cheating prover chooses the result. The gates succeed only for integers of at least 256 bits (or zero bits).", "quantifier": "all fields of odd prime order, circuits, variables, numbers of bits, assignments", "why_tests_cant": "quantifies over all assignments of a cheating prover", "anchors": ["plonk-core/src/constraint_system/logic.rs:logic_gate"]}
{"id": "C68", "title": "point gadgets compute the group operations of the embedded curve", "statement": "point_addition_gate allows exactly the results that solve the addition formulas; on a curve a x^2 + y^2 = 1 + d x^2 y^2 with a a square and d not, for points on the curve, that is exactly one point, which is on the curve, and the stored values of an honest prover satisfy the gates. The identity, equality, public, constant and conditional point gadgets enforce exactly what they say.", "quantifier": "all fields of odd prime order, curves, circuits, points, assignments", "why_tests_cant": "quantifies over all points and assignments", "anchors": ["plonk-core/src/constraint_system/ecc/curve_addition/variable_base_gate.rs:point_addition_gate", "plonk-core/src/constraint_system/ecc/mod.rs:assert_equal_public_point", "plonk-core/src/constraint_system/ecc/mod.rs:conditional_point_select"]}
{"id": "C69", "title": "scalar multiplication gadgets, their scalars and their panics", "statement": "The result of variable_base_scalar_mul is allowed exactly when it is the double-and-add multiple for an integer k of as many bits as the modulus with k = scalar modulo the field order, and that of fixed_base_scalar_mul when it is the multiple for signed binary digits with such a value; the stored values of an honest prover satisfy the gates. The integer is not unique: k and k + p are both allowed when both have so few bits, so a cheating prover obtains a second, different result (shown by an example); fixed_base_scalar_mul panics exactly for scalars s with 3 s >= 2^(bits + 1), which exist when the modulus is more than two thirds of the next power of two (as for BLS12-381).", "quantifier": "all fields of odd prime order, complete curves, circuits, points, scalars, assignments", "why_tests_cant": "quantifies over all decompositions a cheating prover may use; the loop runs over all bits", "anchors": ["plonk-core/src/constraint_system/ecc/scalar_mul/variable_base.rs:variable_base_scalar_mul", "plonk-core/src/constraint_system/ecc/scalar_mul/fixed_base.rs:fixed_base_scalar_mul"]}
{"id": "C70", "title": "every circuit that can be built is well formed", "statement": "After any sequence of calls the selector and wire vectors have equal length (so preprocessing never fails with MismatchedPolyLen), all wires refer to existing variables with stored values, public inputs are at existing gates, and the zero variable is zero in every satisfying assignment. A new circuit and added blinding factors do not restrict the assignments, padding to the domain size does not change which assignments satisfy the circuit, and rows added to a non-empty lookup table invalidate nothing.", "quantifier": "all fields of odd prime order, all sequences of calls of the builder and the gadgets, assignments", "why_tests_cant": "quantifies over all histories of calls", "anchors": ["plonk-core/src/constraint_system/composer.rs:StandardComposer", "plonk-core/src/constraint_system/composer.rs:add_blinding_factors", "plonk-core/src/proof_system/preprocess.rs:pad", "plonk-core/src/proof_system/preprocess.rs:check_poly_same_len"]}
{"id": "C71", "title": "public inputs of plonk-core: insertion, reconstruction, evaluations", "statement": "Public inputs store the non-zero values with their positions; a value can be inserted exactly at the positions that read zero, and only that position changes; otherwise insertion panics. Two public inputs that read the same everywhere are equal, so the order of insertions and inserted zeros leave no trace. from_val_pos succeeds exactly when every item converts, there are as many positions as items and no value (not even zero) comes after a non-zero one for the same position, and then the result reads exactly the given values; get_pos and get_vals give the public inputs back. The documented panic on duplicate positions does not occur when the earlier value is zero. The evaluation vector exists exactly for powers of two larger than all positions. The positions recorded by any circuit can be filled with any values, and filling them with the circuit's values gives its own public inputs.", "quantifier": "all finite sequences of positions and items, all public inputs, all circuits that can be built", "why_tests_cant": "quantifies over all insertion orders and all circuits", "anchors": ["plonk-core/src/proof_system/pi.rs:PublicInputs", "plonk-core/src/constraint_system/composer.rs:get_pi", "plonk-core/src/proof_system/prover.rs:prove_with_preprocessed"]}
{"id": "C72", "title": "copy constraints of plonk-core circuits", "statement": "For every circuit that can be built, computing the sigma permutations of the padded circuit does not panic and gives a permutation of the 4 n wires, which does not depend on the iteration order of the hash map. Values of variables satisfying the circuit give wire values that satisfy all gates and are invariant under the permutation; conversely wire values that satisfy all gates and are invariant under the permutation come from values of variables that satisfy the circuit (and agree with them on every gate that has selectors).", "quantifier": "all fields of odd prime order, all circuits that can be built, hash map orders, wire values", "why_tests_cant": "quantifies over all histories of calls and all values of a cheating prover", "anchors": ["plonk-core/src/permutation/mod.rs:compute_sigma_permutations", "plonk-core/src/permutation/mod.rs:add_variables_to_map", "plonk-core/src/constraint_system/composer.rs:poly_gate"]}
{"id": "C73", "title": "permutation argument of plonk-core", "statement": "For every circuit that can be built, the preprocessed permutation polynomials take on gate i of each column the field element that stands for the wire to which the permutation sends that wire. The prover's accumulator polynomial can be computed exactly when no denominator is zero (all but 4 n values of gamma), and otherwise panics. If the wire values respect the copy constraints the computed polynomial is 1 at the first gate and satisfies the recurrence at every gate, cyclically. If they do not, then for all but 4 n - 1 values of beta and all but 4 n - 1 values of gamma no polynomial at all satisfies the recurrence, provided the cosets of the factors 1, 7, 13, 17 are disjoint, which holds exactly under the stated condition on n-th powers; so wires that satisfy all gates and the recurrence give an assignment satisfying the circuit.", "quantifier": "all fields of odd prime order, all circuits that can be built, domain generators, wire values, challenges beta and gamma, accumulator polynomials", "why_tests_cant": "quantifies over all wire values and polynomials of a cheating prover and counts all challenges", "anchors": ["plonk-core/src/permutation/mod.rs:compute_permutation_poly", "plonk-core/src/permutation/mod.rs:compute_sigma_polynomials", "plonk-core/src/permutation/constants.rs:K1", "plonk-core/src/proof_system/permutation.rs:compute_quotient_i"]}
{"id": "C74", "title": "gate constraints of plonk-core's quotient", "statement": "The sum of the arithmetic, range, logic, fixed-base and curve-addition terms that the prover and verifier of plonk-core put into the quotient vanishes at a gate for all separation challenges exactly when the gate holds: when the gate holds it vanishes for every challenge, and when it does not hold it is non-zero for all but 7 range, 9 logic, 7 fixed-base and 5 curve-addition separation challenges. In particular the degree-3 trick of the logic widget computes AND and XOR of two-bit numbers. Every logic gate that can be built is an AND or an XOR gate.", "quantifier": "all prime fields with more than 3 (for the equivalence: 9) elements, all selector values, public inputs, wire values and challenges; all circuits that can be built", "why_tests_cant": "quantifies over all wire values of a cheating prover and counts all challenges", "anchors": ["plonk-core/src/proof_system/widget/arithmetic.rs:compute_quotient_i", "plonk-core/src/proof_system/widget/range.rs:constraints", "plonk-core/src/proof_system/widget/logic.rs:delta_xor_and", "plonk-core/src/proof_system/widget/ecc/fixed_base_scalar_mul.rs:constraints", "plonk-core/src/proof_system/widget/ecc/curve_addition.rs:constraints", "plonk-core/src/proof_system/quotient_poly.rs:compute_gate_constraint_satisfiability"]}
{"id": "C75", "title": "lookup argument of plonk-core", "statement": "combine_split fails with ElementNotIndexed exactly when a query is not in the table; otherwise its two halves alternate to a vector that consists of queries and table with equal elements adjacent. The prover's compressed vectors are the combinations of the padded table rows and of the wires of lookup gates (other gates query the first row); it panics for zeta 0 and 1 and exactly when a query is not in the compressed table. If the table rows are distinct and every lookup gate carries a row, then for all but 3 m^2 + 2 values of zeta, every delta other than -1 and every epsilon the accumulator satisfies the recurrence cyclically whenever it can be computed (all but 2 n values of epsilon). If a lookup gate carries no row of the table, then for all but 3 n values of zeta, all but 2 n + 1 of delta and 2 n - 1 of epsilon no accumulator satisfies the recurrence, whatever the queries and sorted vectors are. Completeness fails for tables with a repeated row: an honest prover's vectors admit no accumulator.", "quantifier": "all fields, tables, domain sizes, wire values, queries, sorted vectors and challenges", "why_tests_cant": "quantifies over all vectors and polynomials of a cheating prover and counts all challenges", "anchors": ["plonk-core/src/lookup/multiset.rs:combine_split", "plonk-core/src/lookup/multiset.rs:pad", "plonk-core/src/lookup/multiset.rs:compress", "plonk-core/src/util.rs:lc", "plonk-core/src/permutation/mod.rs:compute_lookup_permutation_poly", "plonk-core/src/proof_system/prover.rs:prove_with_preprocessed", "plonk-core/src/proof_system/widget/lookup.rs:compute_quotient_i"]}
{"id": "C76", "title": "quotient polynomial of plonk-core", "statement": "The inverse transform interpolates on the domain. The quotient computed on the coset of the domain of size 8n is a polynomial t with at most 8n coefficients such that the numerator of the prover equals t (X^n - 1) everywhere, exactly if the numerator vanishes at every gate; there is an InvalidEvalDomainSize error if there is no domain of size 8n, and split_tx_poly cuts it into eight parts that recombine to it. For a circuit whose values satisfy it and whose table has no repeated row the prover computes this exact quotient for all but few challenges (it panics only when two challenges coincide, zeta is 0 or 1 or a denominator vanishes). For a circuit that no values satisfy, whatever polynomials a prover fixes in the order of the protocol, all but 9n points show that the numerator is not t (X^n - 1). The order is not enforced, since no commitment to z_2 enters the transcript: a prover that chooses z_2 last has a quotient for every circuit, satisfiable or not, for arbitrary wires.", "quantifier": "all prime fields with more than 3 elements, all circuits that can be built, all wire values, polynomials and challenges", "why_tests_cant": "quantifies over all polynomials of a cheating prover and counts all challenges", "anchors": ["plonk-core/src/proof_system/quotient_poly.rs:compute", "plonk-core/src/proof_system/quotient_poly.rs:compute_permutation_checks", "plonk-core/src/proof_system/preprocess.rs:preprocess_shared", "plonk-core/src/proof_system/preprocess.rs:compute_vanishing_poly_over_coset", "plonk-core/src/proof_system/prover.rs:split_tx_poly", "plonk-core/src/proof_system/prover.rs:prove_with_preprocessed", "plonk-core/src/proof_system/proof.rs:verify"]}
{"id": "C77", "title": "linearisation and verifier of plonk-core", "statement": "The linearisation polynomial that the prover opens is the one to which the verifier computes the commitment. An honest proof is accepted, for every pair of opening challenges, if and only if the numerator is t (X^n - 1) at the point; so for a circuit whose values satisfy it and whose table has no repeated row it is accepted for all but few challenges and at every point outside the domain. For a circuit that no values satisfy, a proof whose polynomials are fixed in the order of the protocol, whose evaluations are fixed before the opening challenges and whose evaluations of selectors are right is rejected for all but few points and opening challenges. None of these conditions is enforced: the verifier never opens the selectors, so that for every circuit a proof with a suitable evaluation of q_arith is accepted; the evaluations of the table are not in the transcript, so that for every circuit and arbitrary wires one of them can be chosen last to get a proof accepted; and so can z_2. The verifier returns an error without a domain, and panics exactly when challenges coincide, the point is 1, zeta is 0 or 1, public inputs lie outside the domain, or the proof lacks one of seven labels.", "quantifier": "all prime fields with more than 3 elements, all circuits that can be built, all polynomials, evaluations, points and challenges", "why_tests_cant": "quantifies over all proofs of a cheating prover and counts all challenges", "anchors": ["plonk-core/src/proof_system/linearisation_poly.rs:compute", "plonk-core/src/proof_system/proof.rs:verify", "plonk-core/src/proof_system/proof.rs:compute_r0", "plonk-core/src/proof_system/proof.rs:compute_linearisation_commitment", "plonk-core/src/proof_system/proof.rs:compute_barycentric_eval", "plonk-core/src/proof_system/permutation.rs:compute_linearisation_commitment", "plonk-core/src/proof_system/widget/lookup.rs:compute_linearisation_commitment", "plonk-core/src/proof_system/widget/arithmetic.rs:compute_linearisation_commitment", "plonk-core/src/lookup/preprocess.rs:preprocess"]}
{"id": "C78", "title": "transcript and interfaces of plonk-core", "statement": "For every hash function and initial transcript, the verifier derives from a proof exactly the challenges with which the prover made it. So the proof for a circuit whose values satisfy it is accepted unless zeta is 0 or 1 or makes two rows of the table equal, delta is -1, or the point lies in the domain; also by gen_proof, compile and verify_proof with one label. The transcript before the opening challenges determines the public inputs and the whole proof except for the commitment to z_2 and the two evaluations of the table, and the initial transcript determines the size and the verifier key except for the selector of lookups. Hence a proof proves nothing: for every hash function, key, table and public inputs and for arbitrary polynomials there are evaluations with which the non-interactive proof is accepted. After any calls of a prover its transcript contains the key exactly once, and a verifier that preprocesses once and is keyed alike has the same transcript; a verifier may preprocess twice, which is not refused as it is for a prover, and then never has the transcript of a prover. A prover that is cleared has the transcript of a verifier only for the label plonk. verify_proof derives the same challenges for all keys.", "quantifier": "all prime fields with more than 3 elements, all hash functions, transcripts, labels, circuits that can be built, keys, polynomials, and all finite sequences of calls", "why_tests_cant": "quantifies over hash functions, over the choices of a cheating prover, and over histories of calls", "anchors": ["plonk-core/src/proof_system/prover.rs:prove_with_preprocessed", "plonk-core/src/proof_system/prover.rs:prove", "plonk-core/src/proof_system/prover.rs:preprocess", "plonk-core/src/proof_system/prover.rs:clear", "plonk-core/src/proof_system/prover.rs:key_transcript", "plonk-core/src/proof_system/proof.rs:verify", "plonk-core/src/proof_system/verifier.rs:preprocess", "plonk-core/src/proof_system/verifier.rs:verify", "plonk-core/src/proof_system/widget/mod.rs:seed_transcript", "plonk-core/src/transcript.rs:TranscriptProtocol", "plonk-core/src/circuit.rs:gen_proof", "plonk-core/src/circuit.rs:compile", "plonk-core/src/circuit.rs:verify_proof"]}
{"id": "C79", "title": "Poseidon hash", "statement": "With constants for the width, the hash of at most width - 1 inputs is the element 1 of the Poseidon permutation of the domain tag, the inputs and zeros: half of the full rounds, the partial rounds, the other half. An input goes to the next free place; one more is an error that changes nothing; a reset gives a new hash. In a circuit, from any state of existing variables, building the hash does not panic, the output is forced to be the same function of the state, and nothing else is restricted; the version of width 3 with affine gates computes the same if the matrix is symmetric and there are exactly the constants needed, and otherwise adds the next key to the output. The number of inputs is not hashed: trailing zeros do not change the hash. A second output without a reset uses no keys, and no S-box in its full rounds. In a circuit the variable of the domain tag is not constrained, so the circuit only proves that the output is the hash for some tag.", "quantifier": "all prime fields (of odd characteristic for circuits), widths, constants, matrices, inputs, circuits that can be built, and assignments", "why_tests_cant": "quantifies over all assignments of the circuit, those of a cheating prover among them, and over all widths and numbers of rounds", "anchors": ["plonk-hashing/src/poseidon/poseidon_ref.rs:PoseidonRef", "plonk-hashing/src/poseidon/poseidon_ref.rs:PoseidonRefSpec", "plonk-hashing/src/poseidon/poseidon_ref.rs:NativeSpecRef", "plonk-hashing/src/poseidon/poseidon_ref.rs:PlonkSpecRef", "plonk-hashing/src/poseidon/zprize_constraints.rs:PoseidonZZRef", "plonk-hashing/src/poseidon/zprize_constraints.rs:PlonkSpecZZ"]}
{"id": "C80", "title": "Poseidon matrices", "statement": "Inversion of a square matrix of at least one row never panics; it finds the inverse, on both sides, and reports none exactly if the matrix takes some vector other than zero to zero. Products of square matrices with rows, columns and each other, and transposed matrices, are those of linear algebra (of other matrices they are wrong, refused, or panic). The matrix generated for width t exists exactly if 0 < t and 3t - 2 is less than the modulus (otherwise a panic): its entries are 1/(i + t + j), it is symmetric, and every square submatrix is invertible, so that it is a maximum distance separable matrix. The matrices derived from a matrix exist exactly if it and its minor are invertible, have the forms wanted, and the product of the two factors is the matrix if the minor is symmetric (otherwise it need not be: the inverse minor is applied on the wrong side), so that for widths from 2 on all matrices exist and are right; for width 1 there is a panic.", "quantifier": "all fields, sizes and matrices; all prime fields for the generated matrix", "why_tests_cant": "quantifies over all matrices of all sizes, the singular ones among them, and over all submatrices", "anchors": ["plonk-hashing/src/poseidon/matrix.rs:Matrix", "plonk-hashing/src/poseidon/matrix.rs:invert", "plonk-hashing/src/poseidon/matrix.rs:eliminate", "plonk-hashing/src/poseidon/matrix.rs:upper_triangular", "plonk-hashing/src/poseidon/matrix.rs:reduce_to_identity", "plonk-hashing/src/poseidon/mds.rs:MdsMatrices"]}
{"id": "C81", "title": "Poseidon precomputed constants", "statement": "The constants of a width and of numbers of full and partial rounds exist exactly if the width is from 2 to 31 (for wider states there is a panic, as the domain tag is computed in 32 bits), three times the width minus 2 is less than the modulus, the number of full rounds is even and at least 2, and there are enough round constants; otherwise there is a panic. There are then full * width + partial compressed keys and as many sparse matrices as partial rounds, and the permutation that they describe (keys added only after the fifth powers, to element 0 only in partial rounds, and matrices that are the identity but in the first row and column) is, from every state, the Poseidon permutation of the round constants. The sparse factors of any matrix that is invertible, with an invertible symmetric minor, can replace it in any number of rounds that act on element 0 only; if the minor is not symmetric they need not.", "quantifier": "all prime fields, widths, numbers of rounds, round constants, states and matrices", "why_tests_cant": "quantifies over all states and all numbers of rounds; the two forms of the permutation are polynomials of a huge degree", "anchors": ["plonk-hashing/src/poseidon/preprocessing.rs:compress_round_constants", "plonk-hashing/src/poseidon/constants.rs:PoseidonConstants", "plonk-hashing/src/poseidon/mds.rs:factor_to_sparse_matrixes", "plonk-hashing/src/poseidon/mds.rs:SparseMatrix"]}
{"id": "C82", "title": "Poseidon round constants", "statement": "For every choice of parameters there is exactly one sequence of bits that starts with their binary digits in the documented places and continues as the shift register of the Grain cipher, and it has infinitely many pairs whose first bit is one, never 120 in a row without one, so that drawing a bit always ends. The generated round constants are, in order, those of the numbers read from the second bits of these pairs, the most significant bit first, that are below the modulus; there are (full + partial) * width of them, and the generator ends exactly if the sequence has so many. It panics exactly if the field is not prime, the field or the declared size has not 249 to 256 bits, or the numbers of rounds or constants overflow 16 bits. Parameters that fit in their places start different sequences; others are cut silently, and start the same ones.", "quantifier": "all parameters, and all moduli of the sizes supported", "why_tests_cant": "quantifies over all parameters; the sequences are infinite, and whether a loop ends cannot be tested", "anchors": ["plonk-hashing/src/poseidon/round_constant.rs:generate_constants", "plonk-hashing/src/poseidon/round_constant.rs:append_bits", "plonk-hashing/src/poseidon/round_constant.rs:GrainLFSR"]}
{"id": "C83", "title": "Poseidon numbers of rounds", "statement": "The search for the numbers of rounds returns, for every test of security, a pair of an even number of full rounds and a number of partial rounds from the ranges searched that passes the test, enlarged by the safety margin if asked for, and no pair that passes has a lower cost (the number of S-boxes, after enlarging), nor the same cost with fewer full rounds. If none passes the numbers are zero. The margin, which accumulates in the variable of the loop, does not change the result. The enlargement is only assumed to be monotone, and the costs to fit in 64 bits.", "quantifier": "all tests of security, monotone margins, and widths whose costs do not overflow", "why_tests_cant": "quantifies over all tests, where the repository compares 19 widths with a table", "anchors": ["plonk-hashing/src/poseidon/round_numbers.rs:calc_round_numbers", "plonk-hashing/src/poseidon/round_numbers.rs:n_sboxes"]}
{"id": "C84", "title": "Lookup tables", "statement": "Inserting an operation (sum, product, exclusive disjunction, conjunction) into a lookup table appends exactly the rows of all pairs of operands of n bits from the lower bound on, each once, with the result modulo 2^n and the tag of the operation; it panics exactly if n > 63, or for products if n > 32 and there are operands, as 64 bits overflow. A lookup gives the third element of a row with the wanted others, or an error exactly if there is none. In a table of several different operations, for a modulus above 3 and not below 2^n, the rows with the tag of an operation have its results only, so that every lookup is right and none succeeds out of range. For smaller fields a lookup can give the result of other operands.", "quantifier": "all tables, operations, bounds, numbers of bits, elements, and prime fields", "why_tests_cant": "quantifies over all tables and all operands; tables grow by a factor of four with each bit", "anchors": ["plonk-core/src/lookup/lookup_table.rs:LookupTable", "plonk-core/src/lookup/lookup_table.rs:insert_multi_add", "plonk-core/src/lookup/lookup_table.rs:insert_multi_mul", "plonk-core/src/lookup/lookup_table.rs:lookup"]}
{"id": "C85", "title": "Example programs", "statement": "The circuit of the example program exists for at least 3 variables and 1 constraint and panics otherwise; an instance (x1, x2, x3) with a witness satisfies its system exactly if every witness value is x1 and, with at least two constraints, x3 = x1 x2. The R1CS example passes verification for all values, at least 5 variables and at most twice that many less 4 constraints (the program has 5 and 5), up to listed unlucky challenges, and always panics with fewer variables. The Fibonacci example passes for every number of steps from 2 up to the characteristic, and the HPR example for every positive scale and every random system, up to listed unlucky challenges; scale 0 panics. The range-check example passes for no size, range or witness (nonzero blinding scalar, hash function without zeros), so that main ends at its first example without printing that a verification passed.", "quantifier": "all circuit values and sizes, step counts, scales, random systems, trapdoors, generators, blinding scalars and hash functions", "why_tests_cant": "quantifies over all sizes, all random samples and all hash functions", "anchors": ["voproof/src/main.rs:TestCircuit", "voproof/src/main.rs:run_r1cs_example", "voproof/src/main.rs:run_fibonacci_example", "voproof/src/main.rs:run_hpr_example", "voproof/src/main.rs:run_range_check_example", "voproof/src/main.rs:main"]}
