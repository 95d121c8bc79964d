{"id": "C01", "title": "Prover and verifier build the same circuit from the same gadget", "statement": "Running the same gadget (any program over the ConstraintSystem interface) against a Prover with witness assignments and against a Verifier without them returns the same variables, registers the same linear constraints in the same order, appends the same messages to the transcript, and leaves both with the same number of multipliers, the same pending half-allocated multiplier and the same metrics.", "quantifier": "every gadget program, every witness assignment, every prior prover/verifier state that is already in agreement", "why_tests_cant": "tests run a handful of fixed gadgets; agreement must hold for every program a user can write and from every reachable state", "anchors": ["bulletproofs/src/r1cs/prover.rs: multiply, allocate, allocate_multiplier, constrain, metrics", "bulletproofs/src/r1cs/verifier.rs: multiply, allocate, allocate_multiplier, constrain, metrics"]}
{"id": "C02", "title": "Prover's wire assignment always satisfies every multiplication gate", "statement": "After any sequence of multiply / allocate / allocate_multiplier / commit / commit_vec / constrain calls on a Prover, the left, right and output wire vectors have equal length and output = left * right on every gate, including a gate that was only half allocated; every variable the API has ever returned can be evaluated without a panic and keeps the value it was assigned.", "quantifier": "every finite sequence of API calls with every argument", "why_tests_cant": "needs induction over unbounded call histories", "anchors": ["bulletproofs/src/r1cs/prover.rs: multiply, allocate, allocate_multiplier, eval"]}
{"id": "C03", "title": "Linear-combination arithmetic means what it says", "statement": "For every assignment of the variables, evaluating a+b, a-b, -a, a*s, scalar_mul(a,s), a variable or a constant built through the public operators gives the sum, difference, negation, scaled value, the variable's value or the constant.", "quantifier": "all linear combinations, scalars and assignments", "why_tests_cant": "infinite domain; operators are implemented by list concatenation and in-place edits", "anchors": ["bulletproofs/src/r1cs/linear_combination.rs: Add, Sub, Neg, Mul, scalar_mul, constant, From"]}
{"id": "C04", "title": "Flattening preserves the constraint system", "statement": "For every challenge z, the flattened weight vectors computed by the verifier satisfy <wL,aL>+<wR,aR>+<wO,aO>+sum_j<wVC_j,v_j>-<wV,v>-wc = sum_q z^(q+1)*value(constraint_q) for every assignment, and the prover computes exactly the same vectors.", "quantifier": "every list of constraints over in-range variables, every z, every assignment", "why_tests_cant": "quantifies over all circuits and all assignments", "anchors": ["bulletproofs/src/r1cs/prover.rs: flattened_constraints", "bulletproofs/src/r1cs/verifier.rs: flattened_constraints"]}
{"id": "C05", "title": "Batching challenges catch an unsatisfied circuit", "statement": "If some gate or some linear constraint is violated then the combined value sum_i y^i(aL_i*aR_i-aO_i)+sum_q z^(q+1)*constraint_q vanishes for at most (number of gates - 1) choices of y for a given z that does not already hide it, and for at most Q choices of z when all gates hold: no constraint is dropped or overwritten by flattening.", "quantifier": "every circuit, every violating assignment", "why_tests_cant": "probabilistic claim over a 255-bit challenge space", "anchors": ["bulletproofs/src/r1cs/verifier.rs: flattened_constraints, verification_scalars_and_points"]}
{"id": "C06", "title": "Degree slots for vector commitments never collide", "statement": "For every number of vector commitments, the polynomial slots chosen for (aL,aR), (aO,wO) and each committed vector are pairwise distinct on the left and on the right side, every slot pair adds up to the operation degree, every slot is below the blinding slot, and there are enough slots for all commitments.", "quantifier": "every number of vector commitments", "why_tests_cant": "tests only cover a few commitments", "anchors": ["bulletproofs/src/r1cs/mod.rs: op_splits", "bulletproofs/src/r1cs/prover.rs: prove_and_return_transcript", "bulletproofs/src/r1cs/verifier.rs: verification_scalars_and_points"]}
{"id": "C07", "title": "The proven coefficient is exactly the constraint-system value", "statement": "The coefficient of x^op_degree of <l(x),r(x)> computed by the prover equals <wL,aL>+<wR,aR>+<wO,aO>+sum_j<wVC_j,v_j>+<y^n o aL,aR>-<y^n,aO>+delta(y,z): no cross term between blinding vectors, commitments or weights leaks into it.", "quantifier": "every circuit, witness, blinding, number of commitments and challenge y (non-zero), z", "why_tests_cant": "a colliding cross term appears only for particular commitment counts", "anchors": ["bulletproofs/src/r1cs/prover.rs: prove_and_return_transcript 841-1106", "bulletproofs/src/util.rs: VecPoly::inner_product"]}
{"id": "C08", "title": "R1CS completeness (single phase, with vector commitments)", "statement": "If a Prover's assignment satisfies every constraint it recorded and prove() returns a proof, then a Verifier that performed the corresponding calls accepts that proof, whatever randomness either side drew and whatever challenges the transcript produced, unless a challenge needed to be inverted was zero or a proof point happened to be the identity.", "quantifier": "every circuit, witness, blinding randomness, verifier randomness and challenge oracle", "why_tests_cant": "tests sample a few circuits with one randomness each", "anchors": ["bulletproofs/src/r1cs/prover.rs: prove_and_return_transcript", "bulletproofs/src/r1cs/verifier.rs: verify, verification_scalars_and_points"]}
{"id": "C09", "title": "R1CS completeness with a randomised second phase", "statement": "The same acceptance guarantee holds when gadgets registered callbacks that draw challenges and allocate further multipliers in phase two (without vector commitments); with vector commitments and second-phase multipliers the prover refuses by a panic rather than producing an unverifiable proof.", "quantifier": "every circuit with any list of deferred callbacks", "why_tests_cant": "depends on challenge values", "anchors": ["bulletproofs/src/r1cs/prover.rs: create_randomized_constraints, prove_and_return_transcript 712-813", "bulletproofs/src/r1cs/verifier.rs: create_randomized_constraints"]}
{"id": "C10", "title": "An unsatisfied witness is caught exactly by the batching equation", "statement": "For a proof produced by the prover's algorithm from an arbitrary (possibly wrong) assignment, the verifier's final check equals r * x^op_degree * D times the value generator, where D is the batched constraint value; so it accepts iff r = 0, x = 0 or D = 0.", "quantifier": "every circuit, every assignment, every challenge and verifier randomness", "why_tests_cant": "the failure set is a measure-zero event no test can sample", "anchors": ["bulletproofs/src/r1cs/prover.rs: prove_and_return_transcript", "bulletproofs/src/r1cs/verifier.rs: verify"]}
{"id": "C11", "title": "Inner-product proof completeness", "statement": "For vectors of any power-of-two length and any generator scaling factors, InnerProductProof::create followed by verify on P = <a o Gf,G>+<b o Hf,H>+<a,b>Q succeeds, unless a challenge was zero or some L/R point was the identity.", "quantifier": "every k, vectors of length 2^k, generators, factors and challenges", "why_tests_cant": "tests fix lengths 1..64 and one factor pattern", "anchors": ["bulletproofs/src/inner_product_proof.rs: create, verification_scalars, verify"]}
{"id": "C12", "title": "Inner-product verification scalars", "statement": "verification_scalars returns squares, inverse squares and a vector s with s_i = prod_j u_j^(+1 or -1 according to bit j of i), so reversing s gives its element-wise inverse.", "quantifier": "every number of rounds and non-zero challenges", "why_tests_cant": "index arithmetic over leading_zeros must hold for every i", "anchors": ["bulletproofs/src/inner_product_proof.rs: verification_scalars"]}
{"id": "C13", "title": "Inner-product argument is specially sound", "statement": "From a tree of accepting transcripts (four challenges with distinct squares per round, equally many L and R points) one can compute vectors a,b with P = <a o Gf,G>+<b o Hf,H>+<a,b>Q, or else a non-trivial linear relation between the generators.", "quantifier": "every number of rounds, every malicious prover transcript tree", "why_tests_cant": "a statement about all adversaries", "anchors": ["bulletproofs/src/inner_product_proof.rs: verification_scalars, verify"]}
{"id": "C14", "title": "A proof whose L and R lists differ in length is rejected with an error", "statement": "Verification of an R1CS or inner-product proof whose R list is not as long as its L list returns VerificationError; in particular it neither panics nor accepts.", "quantifier": "every proof object that deserialisation can produce", "why_tests_cant": "malicious encodings are never exercised by tests", "anchors": ["bulletproofs/src/inner_product_proof.rs: verification_scalars, deserialize_with_mode", "bulletproofs/src/r1cs/verifier.rs: verify"]}
{"id": "C15", "title": "Verification of any decodable proof returns a Result instead of panicking", "statement": "For every byte string that decodes to an R1CSProof, verify returns Ok or Err; it never panics, whatever the number of T points or L/R points.", "quantifier": "every decodable proof", "why_tests_cant": "the adversary chooses the encoding", "anchors": ["bulletproofs/src/r1cs/verifier.rs: verification_scalars_and_points 539-545,662-672", "bulletproofs/src/r1cs/proof.rs: deserialize_with_mode"]}
{"id": "C16", "title": "Accepted proof encodings are canonical", "statement": "Two different byte strings never decode to proofs that a release-build verifier treats identically: the phase flag, the unused T entry and trailing T entries are all checked.", "quantifier": "every pair of byte strings", "why_tests_cant": "malleability is about bytes the honest prover never emits", "anchors": ["bulletproofs/src/r1cs/proof.rs: deserialize_with_mode", "bulletproofs/src/r1cs/verifier.rs: 505,656-657"]}
{"id": "C17", "title": "Too few generators is an error, not a panic or a bad proof", "statement": "If the generator capacity is smaller than the padded circuit size, prove and verify return InvalidGeneratorsLength; otherwise that error is never returned.", "quantifier": "every capacity and circuit size", "why_tests_cant": "boundary behaviour for every size", "anchors": ["bulletproofs/src/r1cs/prover.rs: 567,728", "bulletproofs/src/r1cs/verifier.rs: 436"]}
{"id": "C18", "title": "Any number of vector commitments is supported", "statement": "A satisfied circuit with k vector commitments can be proven and verified for every k.", "quantifier": "every k", "why_tests_cant": "tests use at most a few commitments", "anchors": ["bulletproofs/src/util.rs: T_LABELS", "bulletproofs/src/r1cs/prover.rs: 1025", "bulletproofs/src/r1cs/verifier.rs: 544"]}
{"id": "C19", "title": "Batch verification accepts valid batches", "statement": "If every verification tuple in a non-empty batch of equal-size proofs satisfies its own check then batch_verify returns Ok for every choice of the random weights (capacity permitting).", "quantifier": "every batch, every random weights", "why_tests_cant": "randomised; needs all weights", "anchors": ["bulletproofs/src/r1cs/verifier.rs: batch_verify"]}
{"id": "C20", "title": "Batch verification rejects a batch with a bad proof", "statement": "If some tuple of an equal-size batch fails its own check then, for fixed other weights, at most one value of some random weight makes batch_verify accept; a batch of one is accepted iff the proof is.", "quantifier": "every batch, every position of the bad proof", "why_tests_cant": "probability over the weights", "anchors": ["bulletproofs/src/r1cs/verifier.rs: batch_verify"]}
{"id": "C21", "title": "Batch verification handles proofs of different sizes", "statement": "batch_verify on proofs whose padded sizes differ accepts iff each proof verifies on its own (up to the random-weight error).", "quantifier": "every pair of sizes", "why_tests_cant": "tests only batch identical sizes", "anchors": ["bulletproofs/src/r1cs/verifier.rs: batch_verify 745,764-768"]}
{"id": "C22", "title": "Vector commitments are linear and consistent across the code base", "statement": "Prover::commit_vec and SingleLayerParameters::commit (generator set 0) give the same commitment; adding blinding to a commitment is the same as committing with the summed blinding; the sum of the commitments of M vectors under generator sets 0..M-1 equals the commitment of their concatenation.", "quantifier": "all vectors, blindings, M and L with enough generators", "why_tests_cant": "algebraic law over all inputs", "anchors": ["bulletproofs/src/r1cs/prover.rs: commit_vec", "relations/src/single_level_select_and_rerandomize.rs: SingleLayerParameters::commit", "bulletproofs/src/generators.rs: PedersenGens::commit"]}
{"id": "C23", "title": "Generator tables are stable under growth", "statement": "For any sequence of increase_capacity calls the first n generators of each party are those of new(n, parties), capacity is the maximum requested, and a share view never exposes more than n.", "quantifier": "every sequence of capacity requests", "why_tests_cant": "histories are unbounded", "anchors": ["bulletproofs/src/generators.rs: BulletproofGens::new, increase_capacity, GeneratorsChain"]}
{"id": "C24", "title": "Aggregated generator iterator equals the flattened prefix", "statement": "G(n,m)/H(n,m) yields exactly the first n generators of each of the first m parties in order, for n not above capacity and m not above the party count.", "quantifier": "all n (including zero) and m", "why_tests_cant": "test covers twelve pairs with n >= 16", "anchors": ["bulletproofs/src/generators.rs: AggregatedGensIter::next"]}
{"id": "C25", "title": "Polynomial helpers compute polynomial arithmetic", "statement": "eval of VecPoly::inner_product(l,r) at x equals the inner product of l(x) and r(x); Poly/VecPoly eval is evaluation of the coefficient list; VecPoly1, VecPoly3, Poly2, Poly6 agree with it under their stated zero conditions.", "quantifier": "all degrees, dimensions, coefficients and points", "why_tests_cant": "infinite domain", "anchors": ["bulletproofs/src/util.rs: Poly, VecPoly, VecPoly1, VecPoly3, Poly2, Poly6"]}
{"id": "C26", "title": "Power helpers compute powers", "statement": "exp_iter(x) yields x^0,x^1,...; scalar_exp_vartime(x,n)=x^n for every u64 n; sum_of_powers(x,n)=sum_{i<n}x^i for every n, power of two or not.", "quantifier": "all x and n", "why_tests_cant": "loop invariants over all n", "anchors": ["bulletproofs/src/util.rs: exp_iter, scalar_exp_vartime, sum_of_powers, sum_of_powers_slow"]}
{"id": "C27", "title": "Range proof is sound", "statement": "If an assignment satisfies the constraints range_proof adds for a linear combination v and n bits, then the value of v is the field image of an integer in [0,2^n).", "quantifier": "all n up to 64, all assignments, any surrounding circuit", "why_tests_cant": "soundness is a for-all-adversaries claim", "anchors": ["relations/src/range_proof.rs: range_proof"]}
{"id": "C28", "title": "Range proof is complete", "statement": "For every u64 value below 2^n and n <= 64, running the gadget with the value as witness satisfies all constraints; in general the prover's assignment satisfies the constraints exactly when the linear combination equals the witness modulo 2^n, so a value different from a witness below 2^n, or a value equal to a witness of at least 2^n, is never accepted.", "quantifier": "all values, all n <= 64", "why_tests_cant": "2^64 values", "anchors": ["relations/src/range_proof.rs: range_proof"]}
{"id": "C29", "title": "select proves membership", "statement": "The constraints added by select(x, xs) are satisfiable by wires exactly when the value of x equals the value of some xs_i; with an empty list the gadget panics.", "quantifier": "all list lengths and values", "why_tests_cant": "for-all assignments", "anchors": ["relations/src/select.rs: select"]}
{"id": "C30", "title": "3-bit lookup proves table membership", "statement": "Every assignment satisfying lookup's constraints gives outputs equal to column d of the table for one common d in 0..8 and every d is attainable by the prover.", "quantifier": "all tables, all assignments", "why_tests_cant": "for-all adversarial wires", "anchors": ["relations/src/lookup.rs: lookup, bit, is_bit, single_membership"]}
{"id": "C31", "title": "curve_check accepts exactly the points of the curve", "statement": "The constraints added by curve_check(x,y,a,b) are satisfiable exactly when y^2 = x^3 + a*x + b.", "quantifier": "all curves (a,b), all x,y", "why_tests_cant": "tests only use a = 0 curves", "anchors": ["relations/src/curve.rs: curve_check"]}
{"id": "C32", "title": "checked_curve_addition enforces the group law", "statement": "If its constraints hold for two curve points with coordinates (x_l,y_l),(x_r,y_r) then x_l != x_r and (x_o,y_o) is the affine sum; conversely any two points with different x satisfy it.", "quantifier": "all curve points, all assignments", "why_tests_cant": "for-all adversarial wires", "anchors": ["relations/src/curve.rs: checked_curve_addition, incomplete_curve_addition, not_zero, checked_curve_addition_helper"]}
{"id": "C33", "title": "incomplete_curve_addition enforces the group law", "statement": "The same enforcement holds for the variant without the non-zero check.", "quantifier": "all curve points, all assignments", "why_tests_cant": "the degenerate case x_l = x_r has density ~1/p", "anchors": ["relations/src/curve.rs: incomplete_curve_addition"]}
{"id": "C34", "title": "Window tables decompose every scalar", "statement": "For every scalar r, picking from table i the entry at the i-th 3-bit digit of r and adding the points gives r*H; every table entry used is a finite point.", "quantifier": "all scalars, all bit sizes of the modulus", "why_tests_cant": "2^255 scalars", "anchors": ["relations/src/rerandomize.rs: build_tables, re_randomize 83-93"]}
{"id": "C35", "title": "re_randomize is complete", "statement": "For every commitment and every scalar r the honest prover's run of re_randomize neither panics nor leaves a constraint unsatisfied when the target is commitment + r*H.", "quantifier": "all scalars, all commitments", "why_tests_cant": "the failing scalars have density ~2^-250", "anchors": ["relations/src/rerandomize.rs: re_randomize", "relations/src/curve.rs"]}
{"id": "C36", "title": "re_randomize is sound", "statement": "In every assignment satisfying re_randomize's constraints, the target point minus the commitment point equals (sum_i 8^(i-1) d_i)*H where d_i are the window digits in the assignment.", "quantifier": "all assignments", "why_tests_cant": "for-all adversarial wires", "anchors": ["relations/src/rerandomize.rs: re_randomize 131-158"]}
{"id": "C37", "title": "Single-level select-and-rerandomize is sound", "statement": "In every satisfying assignment of the single level circuit, some child slot holds the x-coordinate of a curve point C and the public point plus Delta is C + r*H for the r encoded by the windows.", "quantifier": "all assignments, all child vectors", "why_tests_cant": "for-all adversarial wires", "anchors": ["relations/src/single_level_select_and_rerandomize.rs: single_level_select_and_rerandomize"]}
{"id": "C38", "title": "Empty slots cannot be selected", "statement": "If the curve has no point with x = 0, an empty child slot (encoded as 0) is never the selected x-coordinate in a satisfying assignment.", "quantifier": "all assignments", "why_tests_cant": "for-all adversarial wires", "anchors": ["relations/src/single_level_select_and_rerandomize.rs: 101-110", "relations/src/curve_tree.rs: x_coordinates"]}
{"id": "C39", "title": "Single-level select-and-rerandomize is complete", "statement": "The honest prover's run with child C in the list, blinding r, satisfies every constraint and builds the circuit the verifier builds, provided no exceptional addition occurs.", "quantifier": "all children, scalars", "why_tests_cant": "needs all inputs", "anchors": ["relations/src/single_level_select_and_rerandomize.rs", "relations/src/curve_tree_prover.rs: single_level_select_and_rerandomize_prover_gadget"]}
{"id": "C40", "title": "Batched single level is sound and complete", "statement": "The batched gadget with M parents binds the public point plus M*Delta to the sum of one selected point per chunk (plus the blinding), with each selected x in its own chunk.", "quantifier": "all M, L and assignments", "why_tests_cant": "for-all adversarial wires", "anchors": ["relations/src/single_level_select_and_rerandomize.rs: single_level_batched_select_and_rerandomize"]}
{"id": "C41", "title": "from_set builds a tree of minimal height with all leaves in order", "statement": "For every non-empty set and L >= 2 without height request, from_set terminates, the height h is the least with L^h >= |set|, parity Even/Odd equals parity of h, element count is |set|, and walking child_index for index i from the root ends in leaf set[i].", "quantifier": "all set sizes and branching factors", "why_tests_cant": "tests use one leaf", "anchors": ["relations/src/curve_tree.rs: from_set, combine, child_index"]}
{"id": "C42", "title": "Requested height is reached without disturbing the leaves", "statement": "increase_height(h) yields height max(h, current), keeps element count and keeps leaf i at index i.", "quantifier": "all trees and heights", "why_tests_cant": "unbounded", "anchors": ["relations/src/curve_tree.rs: increase_height"]}
{"id": "C43", "title": "Every node commits to its children", "statement": "In any tree built by from_set, each inner node's j-th commitment is the zero-blinded commitment under generator set j to the x-coordinates of its children's j-th commitments shifted by Delta with empty slots as zero, and its height is one more than its children's.", "quantifier": "all trees, all nodes, all j < M", "why_tests_cant": "structural induction over all trees", "anchors": ["relations/src/curve_tree.rs: combine, x_coordinates"]}
{"id": "C44", "title": "Prover witness path follows the tree", "statement": "select_and_rerandomize_prover_witness(i,j) returns height-many nodes alternating in parity, each sibling vector opens its parent, each child is in its sibling vector, and the last child is leaf i.", "quantifier": "all trees, indices, tree indices", "why_tests_cant": "unbounded trees", "anchors": ["relations/src/curve_tree_prover.rs: select_and_rerandomize_prover_witness"]}
{"id": "C45", "title": "Out-of-range indices are rejected", "statement": "Asking for a witness of an index >= number of leaves panics instead of returning a path to some other leaf.", "quantifier": "all trees and indices", "why_tests_cant": "needs all indices", "anchors": ["relations/src/curve_tree.rs: child_index", "relations/src/curve_tree_prover.rs: 42-50"]}
{"id": "C46", "title": "Tree construction terminates or panics cleanly for all parameters", "statement": "from_set returns (or panics) for every set and every branching factor L.", "quantifier": "all set sizes and L", "why_tests_cant": "non-termination cannot be tested", "anchors": ["relations/src/curve_tree.rs: from_set 62-104"]}
{"id": "C47", "title": "Prover and verifier of a membership proof build identical circuits", "statement": "Running the prover gadget and then the verifier gadget on the returned path (same tree, same parameters) yields on both curves the same constraints, the same vector-commitment points and the same transcript.", "quantifier": "all trees, indices, scalars drawn", "why_tests_cant": "depends on the random scalars", "anchors": ["relations/src/curve_tree_prover.rs: select_and_rerandomize_prover_gadget", "relations/src/curve_tree_verifier.rs: select_and_rerandomize_verifier_gadget"]}
{"id": "C48", "title": "Membership proofs are complete end to end", "statement": "For any tree and index, the two proofs made from the prover gadget verify with the returned path, and the returned leaf commitment is leaf + r*H for the returned r.", "quantifier": "all trees, indices, randomness, challenges", "why_tests_cant": "sampled only", "anchors": ["relations/src/curve_tree_prover.rs", "relations/src/curve_tree_verifier.rs", "bulletproofs/src/r1cs"]}
{"id": "C49", "title": "Only leaves at the tree's depth can be selected", "statement": "The verifier gadget accepts only paths whose number of commitments equals the height of the tree.", "quantifier": "all paths", "why_tests_cant": "adversarial path lengths", "anchors": ["relations/src/curve_tree_verifier.rs: 23-77"]}
{"id": "C50", "title": "Batched prover and verifier agree", "statement": "The multi-path prover and verifier gadgets build identical circuits and commitments; the verifier's root placeholder is the sum of the M roots.", "quantifier": "all M, trees, index tuples, scalars", "why_tests_cant": "sampled only", "anchors": ["relations/src/batched_curve_tree_prover.rs", "relations/src/batched_curve_tree_verifier.rs"]}
{"id": "C51", "title": "Public inputs are bound to the transcript", "statement": "Two verifier runs whose public inputs differ (path, minted commitments, public keys, tree) have different transcripts at the time the first challenge is drawn, in each of the two circuits.", "quantifier": "all trees, paths, pours, injective encodings", "why_tests_cant": "a Fiat-Shamir binding property over all inputs", "anchors": ["relations/src/single_level_select_and_rerandomize.rs: 86-95, 130-195", "relations/src/batched_curve_tree_verifier.rs", "relations/src/coin.rs: even_verification_gadget, odd_verification_gadget"]}
{"id": "C52", "title": "Spending never trips the prover's internal assertion", "statement": "For a coin made by Coin::new / mint and stored at index i of the tree, prove_spend's recomputed commitment equals the rerandomised leaf.", "quantifier": "all values, keys, randomness, trees", "why_tests_cant": "sampled only", "anchors": ["relations/src/coin.rs: new, mint, prove_spend"]}
{"id": "C53", "title": "Pour preserves value", "statement": "In every satisfying assignment of the pour circuit the field sum of the two minted values equals the field sum of the two spent values, both minted values are in [0,2^64) and the spent tags equal the hashes of the two public keys.", "quantifier": "all assignments", "why_tests_cant": "for-all adversarial wires", "anchors": ["relations/src/coin.rs: prove_pour, even_verification_gadget, verify_mint, verify_spend_even"]}
{"id": "C54", "title": "A transaction with a bad signature is rejected", "statement": "SignedTx::verification_gadget does not return verification tuples when one of the two signatures does not verify.", "quantifier": "all transactions", "why_tests_cant": "tests only sign honestly", "anchors": ["relations/src/coin.rs: verify_signatures, verification_gadget"]}
{"id": "C55", "title": "A pour cannot use one coin for both inputs", "statement": "The two inputs of an accepted pour have different public keys (nullifiers).", "quantifier": "all pours", "why_tests_cant": "tests use distinct coins", "anchors": ["relations/src/coin.rs: Pour::verification_gadget"]}
{"id": "C56", "title": "Honest pours verify", "statement": "prove_pour and even/odd verification gadgets build the same circuits for every branching factor, so a balanced honest pour verifies.", "quantifier": "all L, values, trees", "why_tests_cant": "tests use L = 32..256 only", "anchors": ["relations/src/coin.rs: prove_pour, verify_spend_even 592"]}
{"id": "C57", "title": "Serialisation round-trips", "statement": "Decoding the encoding of an R1CSProof, InnerProductProof, SelectAndRerandomizePath, Pour or SignedTx returns the same object and leaves exactly the remaining input.", "quantifier": "all objects and trailing bytes", "why_tests_cant": "infinite domain", "anchors": ["bulletproofs/src/r1cs/proof.rs", "bulletproofs/src/inner_product_proof.rs: 391-434", "relations/src/curve_tree.rs: 151-258", "relations/src/coin.rs: 312-409, 690-767"]}
{"id": "C58", "title": "serialized_size is the number of bytes written", "statement": "For every object serialized_size equals the length of the serialisation.", "quantifier": "all objects, including malformed ones", "why_tests_cant": "infinite domain", "anchors": ["bulletproofs/src/r1cs/proof.rs: serialized_size", "bulletproofs/src/inner_product_proof.rs: serialized_size", "relations/src/curve_tree.rs", "relations/src/coin.rs"]}
{"id": "C59", "title": "Challenges and hashed points are well defined", "statement": "challenge_scalar / affine_from_bytes_tai return the first accepted candidate in counter order, and panic only if all 256 candidates are rejected.", "quantifier": "all hash functions and inputs", "why_tests_cant": "rejection chains longer than a few never occur in tests", "anchors": ["bulletproofs/src/transcript.rs: challenge_scalar", "bulletproofs/src/util.rs: affine_from_bytes_tai"]}
{"id": "C60", "title": "Hidden wires stay hidden: proof points are uniformly blinded", "statement": "For each fixed witness and challenge set, each of A_I1, A_O1, S1 and T_d ranges over the whole group as its own blinding scalar ranges over the field, independently of the witness.", "quantifier": "all witnesses", "why_tests_cant": "distributional claim", "anchors": ["bulletproofs/src/r1cs/prover.rs: 574-710, 999-1017"]}
{"id": "C61", "title": "Batched membership proofs are complete", "statement": "For every forest built from a set with as many trees as indices, of height at least one, and every tuple of indices, the batched prover's circuits are satisfied by its assignment, the verifier returns the re-randomised leaves that belong to the indices (taken modulo the capacity), and a proof for either circuit is accepted by the verifier.", "quantifier": "all sets, widths, heights, numbers of trees, index tuples, admissible re-randomisation scalars and transcripts", "why_tests_cant": "tests sample one or two shapes and one random set of scalars each", "anchors": ["relations/src/batched_curve_tree_prover.rs", "relations/src/batched_curve_tree_verifier.rs", "relations/src/single_level_select_and_rerandomize.rs"]}
{"id": "C62", "title": "Identity points in a proof are rejected", "statement": "An accepted R1CS proof has no identity point among A_I1, A_O1, S1, the used T commitments and the inner-product L/R points; if A_I1, A_O1 or S1 is the identity the verifier returns VerificationError.", "quantifier": "all proofs, circuits, transcripts", "why_tests_cant": "a missing validation is invisible to tests with honest proofs", "anchors": ["bulletproofs/src/transcript.rs: validate_and_append_point", "bulletproofs/src/r1cs/verifier.rs: 491-545", "bulletproofs/src/inner_product_proof.rs: 262-268"]}
{"id": "C63", "title": "Received transactions do not make the verifier panic", "statement": "SignedTx::verification_gadget returns normally (a value or an error) for every byte string received as a pour.", "quantifier": "all transactions", "why_tests_cant": "panics are reached only by malformed inputs that no test sends", "anchors": ["relations/src/coin.rs: 637-659, 421-487, 490-574"]}
{"id": "C64", "title": "Proofs do not reveal the witness", "statement": "For a one-phase circuit, two satisfying witnesses for the same commitments, constraints and transcript: the prover's random tapes for one correspond one to one to the tapes for the other such that corresponding tapes yield the same proof (Fiat-Shamir challenges included).", "quantifier": "all circuits, witnesses, hash functions; tapes whose challenge x is not zero", "why_tests_cant": "perfect witness indistinguishability is a statement about all tapes and all witnesses", "anchors": ["bulletproofs/src/r1cs/prover.rs: 500-1150"]}
{"id": "C65", "title": "Membership proofs do not reveal which leaf was selected", "statement": "For two positions of the same tree: every path shown for the one is shown for the other under exactly one choice of re-randomisation scalars, and with these scalars the provers' random tapes correspond one to one so that both produce the same path and the same two R1CS proofs.", "quantifier": "all trees, positions, admissible re-randomisation scalars, transcripts and hash functions; tapes whose challenge x is not zero", "why_tests_cant": "indistinguishability is a statement about all tapes and all positions; a test sees one proof", "anchors": ["relations/src/curve_tree_prover.rs", "relations/src/single_level_select_and_rerandomize.rs", "bulletproofs/src/r1cs/prover.rs: 500-1150"]}
{"id": "C66", "title": "Accepted R1CS proofs come from a satisfying witness", "statement": "A proof accepted by Verifier::verify was made by a prover that knows wire values which, together with the committed vectors and values, satisfy every constraint and every multiplication gate: the values can be read off the representation of the proof points, unless the prover found a linear relation among the generators or a challenge fell into a small set fixed before it was drawn.", "quantifier": "all circuits (one and two phases), numbers of vector commitments, algebraic provers, transcripts and challenges", "why_tests_cant": "soundness quantifies over all cheating provers; tests only run the honest one", "anchors": ["bulletproofs/src/r1cs/verifier.rs: 471-760", "bulletproofs/src/r1cs/mod.rs: 19-39", "bulletproofs/src/r1cs/prover.rs: 500-560", "bulletproofs/src/inner_product_proof.rs: 262-320"]}
{"id": "C67", "title": "Which gates an accepted proof does not enforce", "statement": "With an odd number of vector commitments the last of them is placed at degree 0 of l, opposite to degree op of r, where the verifier lets A_O carry arbitrary coefficients. A cheating prover is then accepted for every assignment that satisfies the linear constraints and only those gates i for which entry i of the last vector commitment is zero.", "quantifier": "all one-phase circuits with an odd number of vector commitments, all transcripts, all generator sets", "why_tests_cant": "needs a cheating prover; every honest proof and every proof with a wrong witness from the honest prover behaves as expected", "anchors": ["bulletproofs/src/r1cs/mod.rs: 19-39", "bulletproofs/src/r1cs/verifier.rs: 500-620", "bulletproofs/src/r1cs/prover.rs: 606-621"]}
{"id": "C68", "title": "Membership proofs are sound", "statement": "An accepted membership proof ending in a point R shows that its prover knows a leaf of the tree and a scalar r with R = leaf + r * H.", "quantifier": "all trees, paths, provers and points R", "why_tests_cant": "soundness quantifies over cheating provers; tests only run the honest one", "anchors": ["relations/src/curve_tree_verifier.rs", "relations/src/single_level_select_and_rerandomize.rs", "relations/src/rerandomize.rs: 75-150"]}
{"id": "C69", "title": "Only coins of the tree can be spent", "statement": "An accepted pour spends two coins whose commitments are leaves of the tree; nobody mints more than the coins they can open in the tree are worth.", "quantifier": "all trees, payers, values and keys", "why_tests_cant": "a counterfeiter is a cheating prover; no test plays one", "anchors": ["relations/src/coin.rs: 421-457, 490-599, 637-659", "relations/src/rerandomize.rs: 75-150"]}
{"id": "C70", "title": "How many generators membership proofs and pours need", "statement": "The number of multipliers of the two circuits of a membership proof, a batched membership proof and a pour depends only on the height of the tree, its branching factor, the number of paths and the bit length of the scalar fields. The honest prover makes a proof, which is accepted, exactly if there are at least as many generators as this number rounded up to a power of two; otherwise it returns InvalidGeneratorsLength. This holds for heights up to 35 (14 for pours); for higher trees the prover panics. The generator lengths in the tests and benchmarks suffice.", "quantifier": "all trees, positions, heights, branching factors, numbers of paths, admissible re-randomisation scalars, transcripts with non-zero challenges", "why_tests_cant": "tests run a handful of heights and branching factors; the limits on the height are far outside of them", "anchors": ["relations/src/curve_tree_prover.rs", "relations/src/batched_curve_tree_prover.rs", "relations/src/coin.rs: 203-420", "relations/src/select.rs", "relations/src/rerandomize.rs", "bulletproofs/src/r1cs/prover.rs: 500-620", "bulletproofs/src/r1cs/mod.rs: 19-39", "relations/tests/curve_tree.rs: 29-36", "relations/benches/coin.rs: 85-101"]}
{"id": "C71", "title": "Vector commitments that use the generators H break gates", "statement": "Nothing forces a vector commitment to be a combination of the generators G and the blinding generator only. A prover who puts coefficients h on the generators H into the k-th of two or more vector commitments is accepted for every assignment that satisfies the linear constraints and, instead of the gates, the equations aO_i = aL_i * aR_i + v_i * h_i, where v is the vector of the complementary commitment (k and its complement have degrees adding up to that of the gates).", "quantifier": "all one-phase circuits with at least two vector commitments, all positions k with a complement, all h, transcripts and generator sets", "why_tests_cant": "needs a cheating prover that makes commitments the honest code never makes", "anchors": ["bulletproofs/src/r1cs/mod.rs: 19-39", "bulletproofs/src/r1cs/verifier.rs: 304-318, 500-620", "bulletproofs/src/r1cs/prover.rs: 335-374, 606-621"]}
{"id": "C72", "title": "Nobody mints more than they spend", "statement": "The values of the two coins minted by an accepted pour are below 2^64 and add up to the values of the two coins that are spent, whoever makes the proof.", "quantifier": "all trees, payers who own the two inputs, values, keys and transcripts", "why_tests_cant": "needs a cheating prover that makes commitments the honest code never makes", "anchors": ["relations/src/coin.rs: 138-145, 421-530", "relations/src/range_proof.rs", "bulletproofs/src/r1cs/verifier.rs: 304-318, 500-620"]}
{"id": "C73", "title": "Spent coins lie at the depth of the leaves", "statement": "The paths of an accepted pour are exactly as long as the tree is high, so the coins that are spent are leaves of the tree and not points above or below them.", "quantifier": "all trees, payers, values and keys, with and without debug assertions", "why_tests_cant": "paths of other lengths are never made by the honest prover; the attack spans two transactions", "anchors": ["relations/src/coin.rs: 138-145, 490-616", "relations/src/curve_tree_verifier.rs: 23-47, 60-96"]}
{"id": "C74", "title": "Shuffle proofs show permutations", "statement": "The honest prover of the shuffle example makes a proof whenever the outputs are a permutation of the inputs (at least one, enough generators), and it is accepted. An accepted proof shows that the values its prover committed to as outputs are a permutation of those committed to as inputs, unless the challenge of the randomized constraints is one of at most k values that the commitments fix.", "quantifier": "all numbers k of inputs, values, blindings, permutations, provers, transcripts", "why_tests_cant": "tests run a few sizes with random values and never a cheating prover; that the randomized constraints are sound is a statement about all challenges", "anchors": ["bulletproofs/tests/r1cs.rs: 20-166", "bulletproofs/src/r1cs/prover.rs: 192-198, 244-254, 462-481", "bulletproofs/src/r1cs/verifier.rs: 394-413"]}
{"id": "C75", "title": "Accumulator proofs open elements of leaves", "statement": "The prover of the accumulator makes proofs that are accepted, alone and in batches, for every element of every leaf; and only elements that were put into a leaf of the tree are accepted.", "quantifier": "all trees, leaves, elements, batch sizes, scalars and transcripts", "why_tests_cant": "the bench runs one leaf in one tree with its first element and never an element that is absent or a cheating prover", "anchors": ["relations/benches/accumulator.rs: 55-319", "relations/src/select.rs", "relations/src/curve_tree_verifier.rs: 23-205", "bulletproofs/src/r1cs/verifier.rs: 304-318"]}
{"id": "C76", "title": "Public constants are fixed before the challenges", "statement": "A proof that was made for one public element cannot be accepted for another one: the statement is fixed before the challenges are drawn.", "quantifier": "all circuits, constants, proofs and transcripts; for the accumulator all trees and elements", "why_tests_cant": "takes a prover that picks the statement after the proof; the tests fix the statement first", "anchors": ["bulletproofs/src/r1cs/verifier.rs: 280-330, 394-560", "bulletproofs/src/r1cs/prover.rs: 462-760", "bulletproofs/src/transcript.rs", "relations/benches/accumulator.rs: 110-124, 270-285"]}
{"id": "C77", "title": "Range proofs for one commitment", "statement": "The prover of the range-proof example makes an accepted proof for every value below 2^n (n at most 64, enough generators). With a larger value that is not reduced by the field it still returns a proof, which the verifier refuses unless z is one of at most 2n+1 values fixed by the statement. Whoever makes an accepted proof committed to a value whose canonical representative is below 2^n. More than 64 bits panic when overflow is checked.", "quantifier": "all values, blindings, bit lengths, generator sets and transcripts; for soundness all provers that know the coefficients of their points", "why_tests_cant": "the test draws random values for a few bit lengths; soundness is about all provers and challenges", "anchors": ["bulletproofs/tests/r1cs.rs: 405-505", "relations/src/range_proof.rs", "bulletproofs/src/r1cs/prover.rs: 462-760", "bulletproofs/src/r1cs/verifier.rs: 394-560"]}
{"id": "C78", "title": "The example circuit accepts exactly the solutions", "statement": "The prover of the example gadget returns a proof for any five values, and the verifier accepts it with the public value c exactly when (a1 + a2) * (b1 + b2) = c1 + c in the field, also when c is not the value the prover used. Whoever makes an accepted proof committed to five values that satisfy the equation.", "quantifier": "all values, blindings, public values, generator sets and transcripts with non-zero challenges; for soundness all provers that know the coefficients of their points", "why_tests_cant": "the test checks one solution and one non-solution", "anchors": ["bulletproofs/tests/r1cs.rs: 297-403", "bulletproofs/src/r1cs/prover.rs: 462-760", "bulletproofs/src/r1cs/verifier.rs: 394-560"]}
{"id": "C79", "title": "Linear statements about committed vectors", "statement": "The provers of the linear vector-commitment tests (two equal scalars beside an empty or an unused vector, five linear equations between a vector of five entries and two scalars, a Fibonacci sequence of any length) return a proof for all values; the verifier accepts it if the equations hold and refuses it if not, unless z is one of fewer values than there are equations. Proofs without constraints are always accepted. Whoever makes an accepted proof committed to values that satisfy the equations.", "quantifier": "all values, blindings, lengths of the Fibonacci vector, generator sets and transcripts with non-zero challenges; for soundness all provers that know the coefficients of their points", "why_tests_cant": "each test runs one or two inputs; for the Fibonacci circuit only one length and no wrong vector", "anchors": ["bulletproofs/tests/r1cs_vec.rs: 17-669", "bulletproofs/src/r1cs/prover.rs: 312-374, 462-760", "bulletproofs/src/r1cs/verifier.rs: 280-330, 394-560", "bulletproofs/src/r1cs/mod.rs: 19-39"]}
{"id": "C80", "title": "Products of entries of a committed vector", "statement": "A proof for the multiplication circuit of the vector-commitment tests is accepted only if the committed vector starts with a, b and a * b.", "quantifier": "all values a, b, c, blindings, generator sets and transcripts; honest and cheating provers", "why_tests_cant": "the test checks one wrong product with the honest prover; the attack needs a prover that puts a coefficient on a generator H", "anchors": ["bulletproofs/tests/r1cs_vec.rs: 671-764", "bulletproofs/src/r1cs/mod.rs: 19-39", "bulletproofs/src/r1cs/prover.rs: 606-760", "bulletproofs/src/r1cs/verifier.rs: 500-620"]}
{"id": "C81", "title": "Batched membership proofs are sound", "statement": "A batched membership proof that is accepted ends, for every path, in a re-randomization of a leaf of the tree by a scalar the prover knows.", "quantifier": "all forests, index lists, points and transcripts; honest and cheating provers", "why_tests_cant": "a test only runs the repository's prover, which starts from leaves of the tree", "anchors": ["relations/src/batched_curve_tree_prover.rs: 134-292", "relations/src/rerandomize.rs"]}
{"id": "C82", "title": "Benchmarks of membership proofs verify honest proofs", "statement": "The membership benches accept the proofs of their own prover, in batches of any size, for one path, several separate paths and one batched path, with and without the feature parallel; every path shows a re-randomization of its leaf.", "quantifier": "all trees of height at least one, index lists, scalars, batch sizes and weights", "why_tests_cant": "benches are not run by the tests, and one build has only one of the two branches", "anchors": ["relations/benches/select_rerandomize.rs: 103-450", "relations/benches/batched_select_rerandomize.rs: 143-867"]}
{"id": "C83", "title": "One missing constraint separates membership proofs from soundness", "statement": "If re_randomize also constrained its accumulator to start with the entry of the first window, a satisfied pair of circuits for a path together with openings of all vector commitments would show a leaf of the tree re-randomized by the scalar of the digits of one of the levels, up to the sign of leaf + Delta, or contain an explicit relation between the generators of one curve. If leaves and public point are commitments with known openings, their contents are equal. Honest provers still succeed for every leaf. Without the constraint the verifier is the one of the repository, and C68 forges any point.", "quantifier": "all trees, paths, assignments, openings and transcripts, on curves without a point of x = 0 whose order is at least 15 * 8^(windows - 2) (secp256k1 and secq256k1); for completeness all leaves and admissible scalars", "why_tests_cant": "soundness is about all assignments; tests run only those of the honest prover", "anchors": ["relations/src/curve_tree_verifier.rs", "relations/src/curve_tree_prover.rs", "relations/src/rerandomize.rs", "relations/src/single_level_select_and_rerandomize.rs"]}
{"id": "C84", "title": "Blocks of payments", "statement": "Many payments verified in two batches, as in the payment bench, are accepted exactly if each of them is valid alone (up to one unlucky value of one random weight), in both branches of the bench; no coin is spent twice in an accepted block.", "quantifier": "all non-empty lists of payments with paths of one height and proofs of equal shape, honest or not; all weights, trees and generator sets", "why_tests_cant": "benches are not run by the tests, the bench only repeats one honest payment, and the exceptions are about all random weights", "anchors": ["relations/benches/coin.rs: 104-350", "relations/src/coin.rs: 421-574, 637-687", "bulletproofs/src/r1cs/verifier.rs"]}
{"id": "C85", "title": "Batches of shuffle proofs", "statement": "Shuffle proofs for equally many values, which use the second phase of the constraint system, are accepted by batch_verify exactly if each is accepted alone (up to one unlucky value of one random weight). The helpers of the tests and the benches accept every shuffle of at least one value, the benches up to 1025 values. Shuffles of different sizes that are accepted alone can be refused together.", "quantifier": "all shuffles, blindings, prover randomness, weights and generator chains, all numbers k >= 1 of values and n >= 1 of shuffles with at most 2^32 generators", "why_tests_cant": "the tests batch only two shuffles of one value and four of two values, all honest; the larger batch is commented out, and the benches are not run by the tests", "anchors": ["bulletproofs/tests/r1cs.rs: 140-248, 250-296", "bulletproofs/benches/r1cs.rs: 147-235", "bulletproofs/src/r1cs/verifier.rs: 732-802"]}
{"id": "C86", "title": "A proof of selection shows that the committed value is in the committed vector", "statement": "The prover of the test of select makes a proof for every vector of at least one value and every committed value, which the verifier accepts if the value is in the vector and refuses if not. No proof is accepted for a commitment to a value that is not in the committed vector.", "quantifier": "all vectors, values, blindings, transcripts, randomness of prover and verifier; all proofs for the last sentence", "why_tests_cant": "The test proves one membership for random values; it tries neither values that are not in the vector nor provers that deviate.", "anchors": ["relations/src/select.rs: 5-20, 37-81", "bulletproofs/src/r1cs/prover.rs: 335-374, 502-1195", "bulletproofs/src/r1cs/verifier.rs: 304-318, 421-730"]}
{"id": "C87", "title": "The table lookup of the test is complete for every table and index, and its circuit says exactly table membership", "statement": "For every table of two rows and every index below eight the prover of the test of lookup makes a proof that the verifier accepts, given eight generators; with fewer it returns InvalidGeneratorsLength, and for larger indices it panics. An assignment satisfies the circuit of the verifier exactly with a column of the table in the two allocated variables, and every column can be assigned. Proofs that the prover makes for values other than the column of its index are refused, with at most one exceptional challenge z.", "quantifier": "all tables, indices, generators, transcripts, randomness of prover and verifier; all assignments", "why_tests_cant": "The test runs one random table with index 7 and 1024 generators; it tries neither other indices nor assignments that are not in the table.", "anchors": ["relations/src/lookup.rs: 13-115, 130-190", "bulletproofs/src/r1cs/prover.rs: 121-160, 502-1195", "bulletproofs/src/r1cs/verifier.rs: 421-730"]}
