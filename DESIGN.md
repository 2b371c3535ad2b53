# Formal model of voproof-rust in Rocq (Coq 8.16.1)

Source: `/repo` (crate `voproof`, plus helper crates). The model lives in `rocq/theories/`.

## Modelling conventions

* **Field** `E::ScalarField`: an arbitrary type with operations (`FieldOps`) and the field laws plus a
  decidable equality (`FieldLaws`, explicit hypotheses of every theorem through a type-class argument).
  Concrete instance: integers modulo a prime (`Zp`), used in the non-vacuity examples.
* **G1, G2, GT**: abstract one-dimensional vector spaces over the scalar field (= groups of prime order) with a
  bilinear, non-degenerate pairing (`VSLaws`, `PairingLaws`, type-class arguments of the theorems). Concrete
  instance: exponent representation over `Zp`. Affine/projective/prepared forms of a point are identified.
* **Integers** `u64`, `usize`, `i64`: `nat` or `Z`; wrap-around is modelled only where the property is about it.
  Subtractions on unsigned types that would underflow are explicit panics (debug profile semantics; in a
  release build without overflow checks the same expressions wrap).
* **Results**: `outcome A = Ok a | Err e | Panic`. `unwrap`, index out of range, `assert!`, underflow are `Panic`.
* **Vectors**: lists. Macro loops are folds/maps/scans with the same accumulator structure.
* **HashMap**: association; where iteration order is observable the order is an explicit argument and the
  theorem quantifies over all orders.
* **Hash** (`hash_to_field` of serialized bytes): arbitrary function argument from the list of hashed items to the field.
* **Randomness** (`test_rng`, `F::rand`): explicit arguments/streams quantified over.
* **FFT products**: `evaluate_over_domain` / `interpolate` are taken to compute the product polynomial
  (ark-poly is an external dependency), as is `DensePolynomial` arithmetic, MSM, and the pairing.

## Trusted base

* Coq's kernel; the statements in `theories/Properties_*.v` and the specification files they use.
* `Print Assumptions` is printed under each property theorem. Every one prints "Closed under the global context":
  no axiom of the standard library is used. (`coqchk`/vcheck also lists `Coq.ssr.ssrunder.Under_rel.*`: parameters
  of a module type of the standard library that is loaded with ssreflect support; no theorem depends on them.)
* The reading of the Rust sources (cited by file and line on every definition).
* External crates: ark-ff, ark-ec, ark-poly, ark-serialize, sha2, std (modelled by their contract).

## Properties

* **C01 power is field exponentiation away from zero.** `power` as a Gallina function on (F, Z); compared with the library-independent `fpowZ`; case analysis on zero/one and sign.
* **C02 sparse polynomial evaluation.** fold models; compared with indexed sums by induction on the list.
* **C03 sparse_mvp is the matrix-vector product.** fold over zipped triples updating a list; spec = per-entry sum of matching triples; induction over triples.
* **C04 stacking sparse matrices.** list-level model of the macros; reduced to C03's spec by splitting sums over appended lists.
* **C05 power vector iterator.** iterator state machine `next`; `collect` by fuel = end-start; induction over steps with an invariant on the cached power.
* **C06 vector_power_mul is multiplication by a geometric polynomial.** scan model; invariant acc_i = sum_{t<n} alpha^t v(i-t); coefficient-level convolution spec.
* **C07 power_power_mul is the product of two geometric polynomials.** scan model with three registers; loop invariant; coefficient-level spec.
* **C08 vector_reverse_omega and vector_poly_mul.** map/rev model; product as coefficient convolution; evaluation identity for z<>0.
* **C09 vector expression evaluation.** scan/map models; induction on length.
* **C10 permutation vector from wires.** list swaps; permutation theory on the swap history; forest case by induction on the pair list merging cycles.
* **C11 R1CS satisfaction check.** model of `satisfy`; spec with functions on indices; uses C03.
* **C12 HPR satisfaction check.** same as C11 with the d-vector.
* **C13 random HPR generator only yields satisfied systems.** stream of random values as a function argument; computation of d shown to cancel.
* **C14 sizes reported by constraint systems.** direct model of get_size; refutation witness for HPR.
* **C15 POV satisfaction check.** model of the zip loop and lookup; spec by index.
* **C16 circuit builder preserves the meaning of expressions.** builder state machine; invariant relating variables to expressions, incl. cache soundness; evaluation fold.
* **C17 builder errors.** state machine error branches characterised.
* **C18 wire layout.** arithmetic on offsets per gate type; invariant that wires point to existing gates.
* **C19 honest circuit witness satisfies the derived POV.** invariant over builder histories; witness extraction by position.
* **C20 R1CS to POV conversion is faithful.** R1CS conversion as a builder program parameterised by the map order; row semantics by induction.
* **C21 R1CS to POV conversion failures and nondeterminism.** concrete witnesses by vm_compute.
* **C22 duplicate constraints vanish from the permutation argument.** concrete witness by vm_compute plus general lemma: same pair twice is the identity.
* **C23 KZG setup.** direct model with trapdoor argument.
* **C24 KZG commitment is evaluation at the trapdoor.** MSM as fold; polynomial evaluation by induction; leading zero skipping lemma.
* **C25 KZG single opening completeness.** synthetic division lemma f(X)-f(z) = (X-z) q(X).
* **C26 KZG check equation.** pairing bilinearity and non-degeneracy.
* **C27 KZG batch opening completeness.** linear combination by powers of challenges; reduction to C25 equations.
* **C28 KZG batch verification soundness over the randomizer.** linear equation in the randomizer has at most one root; explicit forgery.
* **C29 vector commitments.** model of the offset computation; C24.
* **C30 Fibonacci argument completeness.** full model of index/prove/verify over abstract hash; Laurent-polynomial identity for g(z)=0; C27.
* **C31 Fibonacci argument binds its public instance.** the verifier's equation depends on the instance through one linear form.
* **C32 POV (prover efficient) argument completeness.** as C30 for the POV protocol (permutation product argument).
* **C33 satisfied circuits the prover-efficient POV argument cannot prove.** (3) in general from the indexer model; (1),(2) by concrete runs of index, prove, verify evaluated in Coq.
* **C34 integer/field conversion.** prime field with canonical representative function; u64 digits.
* **C35 key serialization round trip.** byte-level codec model with abstract element codecs of fixed behaviour.
* **C36 field element formatting is faithful.** `fmt_field` as a datatype of printed forms; read back in the field by cases.
* **C37 adding a signed integer to a field element.** u64 cast as arithmetic modulo 2^64; refutation for negative arguments.
* **C38 sparse vectors and their evaluation agree.** fold model of the sparse macros; sums over distinct positions; refutation witness for duplicates.
* **C39 vector macro library.** map/fold models; pointwise specs by induction.
* **C40 conversion from arkworks constraint systems preserves the matrices.** flattening of rows to coordinate lists; entry-wise sums compared.
* **C41 degree bound checks.** direct model; binary_search by its contract on sorted slices (explicit hypothesis on the search function).
* **C42 prepared keys and commitments.** direct model of the loop; induction.
* **C43 The Fibonacci prover refuses false statements.** inversion of the prover: its sum check decides every constraint; explicit sums per position; comparison with the specification sequence fib_walk.
* **C44 Sequences of length one.** the same sums at n = 1 leave the randomizers in a constraint.
* **C45 POV argument completeness.** as C32 for voproof_pov; the algebra (pv_LP, pv_CT) is proved for vectors of any length so that it also serves dishonest provers.
* **C46 satisfied circuits the POV argument cannot prove.** (1) by a concrete run evaluated in Coq, (2) in general from the indexer model.
* **C47 an accepted opening binds the prover to the committed polynomials.** commitments of explicit polynomials (the prover is algebraic: each commitment is a linear combination of the powers in the parameters); the verification equation is a polynomial identity in the trapdoor; root counting (`most k P`).
* **C48 soundness of the POV argument.** round by round, each prover message universally quantified after the challenges before it, each challenge with a counted set of exceptions: batch opening -> identity at z -> identity of polynomials in omega -> each constraint separately (alpha) -> grand product (zeta, zeta_1) -> permutation -> wires. The challenges are those the verifier derives with an arbitrary hash function, so the statement contains the Fiat-Shamir transform of the code; it bounds bad challenges per round and does not model a prover that grinds the hash function.
* **C49 what the prover-efficient POV argument enforces.** soundness as for C48, with the vectors of this argument; the converse by an explicit dishonest prover (PovPEAttack.v): its vectors satisfy every constraint that the verifier combines, so the rest of the honest prover turns them into an accepted proof; a concrete false statement over the field with 101 elements is accepted for every randomizer.
* **C50 challenges depend on every earlier message.** Transcript.v models to_bytes! down to bytes (8-byte little-endian lengths and positions; the encodings of field elements and points are parameters of fixed length); a challenge is bound to a view of the messages if it is the hash of a string that determines the view.
* **C51 R1CS argument completeness.** R1.v models index/prove/verify of voproof_r1cs; a table of Laurent coefficients of the combined polynomial (R1Const) shows that its constant term vanishes exactly for a satisfied system; the honest proof is replayed round by round.
* **C52 satisfied systems the R1CS argument cannot prove.** sizes of the vectors and the assertion in zero_pad; a computed run for the system with too many rows.
* **C53 the R1CS argument does not enforce the declared number of inputs.** the completeness proof for instances of any length: only the first input_size coefficients of the instance polynomial enter the equations.
* **C54 soundness of the R1CS argument.** R1SoundSpec.v: what it means that the verifier accepts commitments to given polynomials; R1Sound.v: the batch opening forces the polynomial identity at omega (KZGSound), the coefficients of it give matrix-vector identities batched by powers (Sound.v counting lemmas), and the accumulator and grand sums are handled by counting zeros of partial fractions (PartFrac.v).
* **C55 prover-efficient R1CS argument completeness.** RP.v models index/prove/verify of voproof_r1cs_prover_efficient; RPConst.v computes the constant term of the combined Laurent polynomial as a sum over positions, RPGood.v shows that every summand vanishes for a satisfied system, RPComplete.v/RPTop.v follow the rounds; rp_unlucky lists the bad challenges and the constant polynomials that ark-poly cannot divide.
* **C56 satisfied systems the prover-efficient R1CS argument cannot prove.** sizes of the vectors and the assertions in zero_pad and vector_power_mul; a computed run for the system with two inputs and one row.
* **C57 soundness of the prover-efficient R1CS argument.** RPSoundSpec.v: acceptance of commitments to given polynomials; RPSound.v: as for C54, with the two-sided matrix identity (rows batched by mu, columns by nu) unfolded into the three products.
* **C58 the range-check prover returns no proofs.** RC.v: model of range_check.rs with all debug comparisons; RCProofs.v: product polynomial as a Laurent polynomial; RCComplete.v: inversion of a successful run, the combined polynomial at z is the coefficient without room times a power of z.
* **C59 soundness of the range-check argument.** RCSoundSpec.v: acceptance of commitments to given polynomials; RCSound.v: constant term, powers of alpha, running sum, then the logarithmic-derivative identity sum 1/(w_j+beta) = sum m_i/(t_i+beta), cleared of denominators, gives membership in the table.
* **C60 completeness of the HPR argument.** HP.v: model of voproof_hpr.rs; HPProofs.v (product polynomial as a Laurent polynomial), HPConst.v (its constant term), HPGood.v (a satisfied system makes every summand vanish), HPComplete.v (commitments combine to the commitment of g), HPTop.v (composition).
* **C61 where the HPR argument and the HPR satisfaction check disagree.** HPTop.v: panics by case analysis on the rounds, none of which returns an error before; refutations by computing concrete runs modulo 101.
* **C62 soundness of the HPR argument and exactly what it enforces.** HPSoundSpec.v: acceptance of a proof made of commitments, the enforced relation and a strategy game, all in terms of the system; HPSound.v: acceptance forces the batched constraints (KZGSound), few challenges hide a violated one (Sound.v), the partial-fraction argument gives the rows; HPStrategy.v: the prover that answers every challenge.
* **C63 proofs let anyone test guesses of the witness.** LeakSpec.v: the public test of a guess (solve for the blinding scalar, recompute the commitment) and what it means that guesses are testable; Leak.v: the test accepts the committed vector, and accepts another one only at the roots of a nonzero polynomial; LeakProt.v: what each prover commits to and reveals, by inversion of the prover.
* **C64 the arithmetic gates of the circuit builder enforce exactly their equation.** Plonk.v: the composer as lists of selectors and wires; PlonkSpec.v: when an assignment satisfies a circuit (every gate of the padded circuit, cyclically), what it means that added gates enforce a relation or compute a value, and the inductive set of circuits that can be built. PlonkProofs.v, PlonkGadgets.v: appending a block of gates adds exactly the conditions of its rows; then gate by gate.
* **C65 tests, selections, affine transformations and lookups compute what they say.** PlonkSelect.v: composition of gadgets (each output is determined, new variables can always be chosen), then each gadget.
* **C66 range gates accept exactly the values of the given number of bits.** PlonkRange.v: the accumulators of the quads by induction on the rows, in both directions.
* **C67 and_gate and xor_gate do not bind their inputs.** PlonkLogic.v, PlonkLogicOk.v: the rows of the logic gate by induction; the inputs occur in no constraint.
* **C68 point gadgets compute the group operations of the embedded curve.** PlonkPoint.v: the addition law on complete twisted Edwards curves (no vanishing denominators, closed); PlonkEcc.v: the small gadgets. The witness side of the curve code is modelled as the affine addition formulas.
* **C69 scalar multiplication gadgets, their scalars and their panics.** PlonkFixed.v: signed digits (value and length of the non-adjacent form), rows by induction; PlonkVarBase.v: bit decomposition and double-and-add by induction. The multiple of a point is specified as the result of the doubling and adding steps (associativity of the group law is not used).
* **C70 every circuit that can be built is well formed.** PlonkRows.v, PlonkBuilt.v: induction on the history of calls; padding by comparing the cyclic rows.
* **C71 public inputs of plonk-core: insertion, reconstruction, evaluations.** PlonkPI.v: the ordered map as a list sorted by position; PlonkSigmaSpec.v: what it reads; PlonkPIProofs.v: induction on the insertions; the positions of a circuit are increasing by induction on the history of calls (PlonkWires.v).
* **C72 copy constraints of plonk-core circuits.** PlonkWires.v, PlonkWires2.v: every wire of every gate is registered exactly once, at its variable, by induction on the history of calls; PlonkSigma.v: the loop computes the cyclic successor in each variable's list; PlonkCopy.v: wire values invariant under it factor through the variables.
* **C73 permutation argument of plonk-core.** PlonkProver.v (model), PlonkGP.v: the accumulated ratios telescope; ProdPoly.v: two products of shifted linear factors that agree at more points than factors are the same multiset of roots, used once in gamma and once in beta.
* **C74 gate constraints of plonk-core's quotient.** PlonkGates.v: each widget is an odd polynomial in its separation challenge whose coefficients vanish exactly when the gate holds (16 integer cases for the logic widget); PlonkSels.v: induction on the history of calls.
* **C75 lookup argument of plonk-core.** PlonkLookup.v: the product identity determines the set of pairs of neighbours for most challenges, and then a query outside the table would fill the whole sorted vector; PlonkLookup2.v, PlonkLookup3.v: combine_split sorts by first occurrence, whose neighbours are those of the table and the queries; PlonkLookup4.v: compression.
* **C76 quotient polynomial of plonk-core.** PolyDom.v: interpolation and division by X^n - 1 on the roots of unity; PlonkQuotProofs.v: the numerator as a polynomial of degree below 9n, compared on the coset; PlonkQuot2.v, PlonkQuot4.v: at a gate it is a polynomial in the challenges whose coefficients are the identities of C73, C74 and C75; PlonkQuot3.v: for fixed challenges the vanishing of the numerator is a cyclic linear recurrence in z_2, which has a solution.
* **C77 linearisation and verifier of plonk-core.** commitments are the polynomials themselves and an opening check is the equation between the combined values; PlonkVerifyProofs.v: barycentric evaluation is interpolation, and the commitment of the verifier plus r_0 at the point is the numerator minus t (X^n - 1); PlonkVerify2.v: a wrong evaluation is a nonzero polynomial in the opening challenge; then C76.
* **C78 transcript and interfaces of plonk-core.** the transcript is the list of the labelled messages and a challenge an arbitrary function of it; PlonkTranscriptProofs.v: the two transcripts are peeled from the end, so that every message is determined, and the prover run is matched with the verifier run round by round; then C76 and C77. The histories are by induction on the calls.
* **C79 Poseidon hash.** PoseidonSpec.v defines the permutation; PoseidonProofs.v proves once, for any arithmetic that computes sums and products, that the rounds take the state r to the state r + 1, and is applied to field elements and (PoseidonPlonk.v) to variables of a circuit, where a step is an extension by gates that determine one new variable. PoseidonZZ.v: the same with the keys of the next round added early.
* **C80 Poseidon matrices.** PMatrixSpec.v defines inverses, singular matrices, minors and maximum distance separable matrices by entries. PMatrixProofs.v: each step of the elimination keeps the set of pairs of vectors (z, w) with A z + B w = 0 for the matrix A and its shadow B; at the end A is the identity, and choosing w = -M z and z = -I w gives both products; where no pivot is found a vector is found by substitution. PMatrixCauchy.v: the numerator of a sum of fractions c/(X + y) has degree less than the number of its zeros.
* **C81 Poseidon precomputed constants.** POptSpec.v defines the form of the permutation with compressed keys and sparse matrices by functions on states; PoseidonSpec.v the permutation itself. PSparse.v: a matrix that fixes element 0 commutes with a step on element 0, so that the factor of the minor moves through the partial rounds, by induction on their number. PCompressProofs.v: the keys pushed back through the inverse matrix are those of the permutation.
* **C82 Poseidon round constants.** GrainSpec.v defines the generator by infinite sequences of bits. GrainProofs.v: the state is a window of the sequence; a loop that never finds a one would make all bits at even places zero, and a combination of the equations of the register (a Bezout identity of polynomials over two elements, checked by computation) then makes those at odd places zero, and so the state and the ones in the seed. The model gives the first constant published with the Poseidon paper.
* **C83 Poseidon numbers of rounds.** Properties_PRounds.v: the key of a pair is its cost and its number of full rounds, in lexicographic order. Once a turn of the outer loop has met a secure pair, all later candidates of that turn have larger keys, with or without the accumulated margin, so that each turn improves the best pair by its first secure one.
* **C84 Lookup tables.** PlonkTableSpec.v defines the rows of an operation by integer arithmetic. Properties_PlonkTable.v: the nested loops append a flattened list, bits from n on of results are shown to be zero, and the four tags differ if 1, 2 and 3 are not zero in the field.
* **C85 Example programs.** Examples.v models main.rs and the part of the arkworks constraint system builder the circuit uses (external contract). Properties_Examples.v: the matrices are computed by induction over the loops and a row of them times a vector is evaluated; the runs follow from C13, C30, C51, C52, C58 and C60. The floating-point witness of the range-check example is an argument. The concrete run shown is the one of the Fibonacci example; those of the other two are too slow to evaluate in Coq, so only their systems are.

## Source files and model files

| source (`/repo/voproof/src`) | model |
| --- | --- |
| `tools/mod.rs` (vector, polynomial, matrix, permutation, transcript macros and functions) | `Tools.v`, `Snark.v`, `Transcript.v` |
| `cs/r1cs.rs`, `cs/hpr.rs`, `cs/pov.rs`, `cs/fibonacci.rs` | `CS.v`, `R1CSCirc.v`, `Fib.v` |
| `cs/circuit/mod.rs`, `cs/circuit/fan_in_two.rs` | `Circuit.v`, `Build.v` |
| `kzg/mod.rs`, `kzg/data_structures.rs` (keys, commit, open, check, batch; no serialization) | `KZG.v` |
| `snarks/voproof_pov_prover_efficient.rs` | `PovPE.v` |
| `snarks/voproof_pov.rs` | `Pov.v` |
| `snarks/fibonacci.rs` | `Fib.v` |
| `snarks/voproof_r1cs.rs` | `R1.v` |
| `snarks/voproof_r1cs_prover_efficient.rs` | `RP.v` |
| `snarks/range_check.rs`, `cs/range.rs` | `RC.v` |
| `snarks/voproof_hpr.rs` | `HP.v` |

## Not modelled
Timers, parallelism (`rayon`), memory limits, `println!` output, benchmarks, the floating-point witness of the range-check example and the output of `main.rs` (the rest is `Examples.v`),
curve arithmetic, SHA-256, FFT internals; `snarks/template.rs`; the vendored crates
`plonk-core` apart from its circuit builder (constraint_system/, the public inputs and the padding of proof_system/) and of the identities that its prover has to satisfy on the evaluation domain (permutation/, the widgets, the lookup argument, the preprocessing of the circuit and the quotient polynomial with the Fourier transforms as the sums that they compute; the linearisation and the verifier with commitments replaced by the polynomials; the transcript with an arbitrary hash function, and the interfaces for proofs; the tables of lookup/lookup_table.rs; the commitment scheme and the conversion of hashes to scalars are not modelled), `plonk-hashing` apart from the Poseidon hash (poseidon_ref.rs, zprize_constraints.rs), its matrices (matrix.rs, mds.rs), its precomputed constants (constants.rs, preprocessing.rs), the generator of its round constants (round_constant.rs) and the choice of the numbers of rounds (round_numbers.rs, with the tests in floating point as parameters), `plonk`. `plonk-core` is vendored for comparison benchmarks, is not a member of the workspace and is half-ported from arkworks 0.3 to 0.4, so it may not compile as it stands; the builder is modelled as the text says, and the witness side of the curve code as the affine addition it intends.
