# Formal model of curve-trees: design

Target: `/repo` (Rust workspace `bulletproofs` + `relations`), modelled in Coq 8.16.1 under
`/verif/rocq/theories`. Standard library only.

## Trusted base

* Coq's kernel, and what `Print Assumptions` prints after each theorem in the `Props*.v` files
  (the aim is "Closed under the global context" everywhere).
* The hand translation from Rust to Gallina. Every definition of a model file cites the lines it
  models; simplifications are stated in that comment.
* The following parts of the system are *parameters* of the model, never axioms (they are record
  fields or section variables that become explicit universally quantified arguments):
  * the prime fields (`Field`: a commutative field with boolean equality), the groups (`VSpace`:
    a module over the scalar field), the curves (`SWCurve`: a module with affine coordinates that
    obey the short-Weierstrass chord law for points of different x). `ark-ff` / `ark-ec` are
    assumed to implement these; instances that satisfy the records are constructed in Coq (so the
    hypotheses are not vacuous).
  * the Merlin transcript: a function from the list of labelled messages/challenges so far to the
    next challenge. Nothing is assumed about it (in particular no collision resistance).
  * the encoders of scalars and points to bytes; the round-trip theorems assume exactly the
    round trip of the encoders of the two leaf types.
  * all randomness drawn by prover and verifier: explicit arguments, universally quantified.
* Rust panics (`unwrap`, index out of range, `assert!`, division by zero) are `None`/`Panic`;
  `Result::Err` is data. `debug_assert!` is governed by an explicit build-mode flag.
* `usize` is `nat` except where the width matters (shifts in the range proof, `1 << lg_n`, `L.pow(h)`).

Not modelled: timing and side channels (`clear_on_drop`), Rayon parallelism (the parallel loops
write disjoint slots; modelled sequentially), the feature-gated `bench`/`yoloproofs` code, RNG
quality, the Schnorr scheme itself (a boolean parameter), SHA3/ChaCha internals (parameters).

## Files

| file | content |
|---|---|
| `Field.v`, `Fp.v` | field record and lemmas; concrete prime fields |
| `Vec.v`, `Group.v` | vectors, inner products, modules, multi-scalar multiplication |
| `Util.v` | `util.rs` |
| `CS.v` | linear combinations, gadget programs (free monad over `ConstraintSystem`), prover and verifier interpreters, flattening |
| `IPP.v` | `inner_product_proof.rs` |
| `R1CS.v` | `prove_and_return_transcript`, `verification_scalars_and_points`, `verify`, `batch_verify` |
| `Generators.v` | `generators.rs` |
| `CSLogic.v`, `CSExact.v` | program logics: soundness (`wps`), completeness (`wpc`), what the prover's own satisfied assignment implies (`wpx`) |
| `Lockstep.v`, `CSMore.v`, `FlatProofs.v` | prover/verifier lockstep, sessions, flattening |
| `Gadgets.v`, `GadgetProofs.v` | `select`, `lookup`, `range_proof`, field-level part of `curve.rs` |
| `Curve.v` | the curve interface (prime fields with integer representation, short Weierstrass curves) |
| `CurveGadgets.v`, `RerandArith.v` | addition helpers, `rerandomize.rs`, `single_level_select_and_rerandomize.rs`; window arithmetic |
| `RerandTables.v`, `RerandProofs.v`, `RerandMore.v` | tables, soundness, completeness, panics and exceptional scalars of `re_randomize` |
| `SingleLevel.v`, `SinglePanics.v`, `Fermat.v` | single-level gadgets (one parent and batched); Euler's criterion for "no point with x = 0" |
| `Toy.v`, `ToyCurve.v` | concrete environments and a concrete 2-cycle of curves, for the examples and refutations |
| `Tree.v`, `TreeProofs.v` | `curve_tree.rs` and witness paths of `curve_tree_prover.rs`; structure and commitment invariants |
| `SelRerand.v` | path prover and verifier of `curve_tree_prover.rs`, `curve_tree_verifier.rs` and the batched variants |
| `SelSim.v`, `SelPath.v` | prover and verifier gadgets in lockstep; whole paths |
| `SelBatch.v` | the same for batches of paths |
| `Coin.v` | coins, pour, signatures |
| `WIProofs.v`, `PropsHiding.v` | the prover's randomness: blinding of points, equal proofs from different witnesses (C60, C64) |
| `PropsPrivacy.v` | equal membership proofs for different positions of a tree (C65) |
| `Wider.v`, `CoinProofs.v` | verifiers that announce larger vector dimensions than the prover; mint and spend in lockstep |
| `PourProofs.v` | whole pours: totality, lockstep, soundness, acceptance, rejection of wide trees |
| `PropsCoin.v` | C52-C56, C63 and a toy payment with Schnorr signatures |
| `Binding.v`, `PropsBinding.v` | what the verifiers append to the transcript as a list of events; which public inputs it determines (C51) |
| `SoundSpec.v` | vocabulary for soundness: free space over the generators, lists of bad challenges, extracted assignment (C66) |
| `SoundCount.v`, `SoundSplit.v`, `SoundIPP.v`, `SoundFree.v`, `SoundMain.v`, `SoundGame.v`, `SoundLift.v` | root counting; the final check split in two; rounds of the inner-product argument; coordinates; gates and constraints from the two checks; all rounds together; from the free space to the group |
| `ForgePath.v`, `ForgePour.v` | a cheating prover of membership and a payer without coins, and their acceptance (C68, C69) |
| `CircuitSize.v` | how many multipliers and vector commitments every gadget takes; sizes of the circuits of paths and pours (C70) |
| `Forge.v`, `ForgeProofs.v` | a cheating prover that uses the coefficients of A_O on H, and its acceptance (C67) |
| `ForgeVec.v`, `ForgeVecProofs.v` | a cheating prover that uses the generators H in a vector commitment, and its acceptance (C71) |
| `Inflate.v`, `PropsInflate.v` | a payer that mints more than it spends with the help of C71 (C72) |
| `PropsConserve.v` | accepted pours of provers without H-coefficients conserve value (the part of C72 that holds) |
| `Depth.v`, `PropsDepth.v` | pours put together from parts; a payer that spends coins below the leaves of the tree (C73) |
| `Shuffle.v`, `ShuffleProofs.v`, `PropsShuffle.v`, `PropsShuffleExact.v` | the shuffle proof of `bulletproofs/tests/r1cs.rs`, the client of randomized constraints (C74) |
| `Accumulator.v`, `AccProofs.v`, `PropsAcc.v`, `PropsAccSound.v` | the accumulator of `relations/benches/accumulator.rs` (leaves are commitments to sets of elements), and a cheating prover for it (C75, C76) |
| `Late.v`, `AccCount.v` | proofs against a statement that is chosen after the challenges; how many challenges are unlucky (C76) |
| `Clients.v`, `PropsClients.v` | the range proof and the example gadget of `bulletproofs/tests/r1cs.rs` 297-505, from values to the verifier's decision (C77, C78) |
| `VecClients.v`, `PropsVecClients.v` | the seven circuits over committed vectors of `bulletproofs/tests/r1cs_vec.rs`, from values to the verifier's decision, and a cheating prover for the multiplication circuit (C79, C80) |
| `ForgeBatch.v`, `PropsForgeBatch.v` | a cheating prover of batched membership, and its acceptance (C81) |
| `SelBench.v`, `SelBenchProofs.v`, `PropsSelBench.v` | model of the membership benches, and which of their branches accept honest proofs (C82) |
| `TiedProofs.v`, `TiedComplete.v`, `PropsTied.v` | verifier and prover of single paths with the constraint missing from `re_randomize` added: soundness of whole paths, honest provers unaffected (C83) |
| `PourBench.v`, `PropsPourBench.v` | model of the bench of payments (benches/coin.rs), and blocks of payments verified in two batches (C84) |
| `ShuffleBatch.v`, `PropsShuffleBatch.v` | model of the helpers and benches of the shuffle proof (tests/r1cs.rs 170-248, benches/r1cs.rs), and batches of shuffles (C85) |
| `SelectClient.v`, `PropsSelectClient.v` | model of the test of `select` (relations/src/select.rs 37-81), and who can prove membership in a committed vector (C86) |
| `LookupClient.v`, `PropsLookupClient.v`, `PropsLookupWrong.v` | model of the test of `lookup` with `Lookup3Bit::lookup` (relations/src/lookup.rs 77-84, 130-190); its proofs are accepted, and what its circuit says (C87) |
| `Serial.v` | encoders/decoders |
| `*Proofs.v` | lemmas |
| `Props*.v` | the property theorems only, with witnesses (`Example`) and `Print Assumptions` |

## Plan per property

* C01 lockstep: gadgets are programs `Prog`; prover and verifier interpreters; a simulation relation
  between the prover's program (witnesses present) and the verifier's (witnesses absent); induction over programs.
* C02 gate invariant: invariant over all API histories of the prover interpreter; values of variables are stable.
* C03 LC algebra: evaluation is a homomorphism; induction on lists.
* C04 flattening: loop invariant over constraints and terms; equality of prover and verifier vectors.
* C05 batching: polynomial root counting over a field (a non-zero coefficient list of length n has at most n-1 distinct roots).
* C06 op_splits: arithmetic over lists, all `ncomm`.
* C07 coefficient identity: algebra on slot polynomials: coefficient of a product of sparse vector polynomials.
* C08, C09, C10: executable prover and verifier; the final multi-scalar check is computed symbolically as
  `r * x^op * D * B`; completeness is `D = 0`, exactness is the equivalence.
* C11, C12: recursion on the number of rounds; s-vector by induction.
* C13: special soundness by extraction round by round (4 challenges each), relation or witness;
  the extractor is chosen before the group, so the statement is not void in groups of prime order.
* C14, C15, C16, C18, C21: refuted by concrete witnesses / shown only under the stated extra hypothesis.
* C17: case analysis on the executable functions.
* C19, C20: linearity of the batch; one bad proof leaves at most one bad weight.
* C22: module algebra. C23, C24: list algebra about chains; C24 refuted for n = 0.
* C25, C26: induction / strong induction on bits.
* C27-C30: satisfaction of the emitted constraints characterised for every assignment.
* C31: exact characterisation (`a*x^2`), hence correct iff a = 0 or x in {0,1}; refuted in general.
* C32, C33: field algebra; C33 refuted when x_l = x_r (concrete witness), proved otherwise.
* C34: digit sums. C35: completeness given no exceptional addition; the exceptional scalars exist for the
  Pasta moduli (arithmetic refutation) and are excluded by a size condition otherwise.
* C36: refuted (the first window is not connected: every target but a few is accepted). To say what is
  missing, the model's gadget takes a flag `tied` (false in the code) that adds the missing constraint on the
  first accumulator, an initial accumulator `A0` (`v0` in the code) to describe dishonest provers, and returns
  the bit variables of the windows. Full soundness is proved for `tied = true` only.
* C37-C40: composition of the gadget theorems; C37 and C40 inherit the refutation of C36.
* C41-C46: structural induction over trees; L = 1 non-termination, aliasing refutations.
* C47-C50: simulation between the path prover and verifier; composition with C08.
* C51: refuted for the batched gadget and the odd/even cross-curve inputs; proved for the single-path one.
* C52-C56: coin gadgets; refutations for signatures (C54) and duplicate inputs (C55), dimension mismatch (C56).
* C51: the transcript a gadget run appends computed as a list of events (`emits`), and injectivity of these lists.
* C57, C58: encoder/decoder pairs. C59: rejection sampling loops. C60: bijectivity of blinding. C64: correspondence of random tapes (perfect witness indistinguishability). C65: C64 composed with the completeness of select-and-rerandomise for two positions shown with the same path.
* C61: completeness of the batched proof, on top of C50 and C08.
* C62: identity points among the validated points are rejected.
* C63: refuted, panics of the transaction verifier on malformed input.
* C66: provers are algebraic: each point of the proof is given with its coefficients over the generators
  (`FreeV`), chosen round by round, after the challenges of the earlier rounds and before those of the later
  ones. `unless_unlucky` says that in each round all but a bounded number of challenges lead to the conclusion.
  The verifier's equation is read in coordinates; each round is a root count. What is left for gate `i` is
  `aL*aR - aO + v_i*oR_i = 0` where `oR` are the coefficients of A_O on H and `v` is the last vector commitment
  if their number is odd. No statement about the random oracle is made: the challenges are those the
  transcript of the accepted run yields, and the theorem bounds the bad ones.
* C67: the term `v_i*oR_i` is used by a cheating prover; its acceptance is proved like C08.
* C68, C69: the attacker changes the witness of the last level only (accumulator started at `R - leaf`, digits zero);
  satisfaction and agreement with the verifier are proved as in C47, C48, C56. The attacker gets no opening of a leaf.
* C70: a predicate on gadget programs counts half multipliers (allocations come in pairs); it is summed over the levels of a path.
  With C17/C18 (when the prover succeeds) this gives the exact number of generators.
* C71: coefficients h on H in vector commitment k meet the complementary vector commitment at the degree of the gates; acceptance is proved like C67. The invariants of prover sessions are stated for states whose first gates may be violated (`gates_from n`, `honest_from n`), so that they can be reused for the cheating prover.
* C72: the attacker follows `Pour` (coin.rs 421-530) except for the first output, whose first bit is the integer that balances the values; the range proof then has one violated gate (bit * (1 - bit) = 0), and C71 makes up for it because the first output and the commitment of the second spent coin are complementary. What holds (`C72_conservation_partial`) is C66 composed with C53: a payer whose vector commitments have coefficients on G and the blinding generator only, whose pour is accepted and whose two paths have together an even number of inner nodes, knows openings of the minted and spent coins with equal sums and minted values below 2^64 (or a relation between the generators, or was lucky).
* C73: a coin commitment without blinding whose tag is the entry of an odd point is also the commitment of an inner node; the honest path prover and the two halves of the verifier gadget (curve_tree_verifier.rs 98-205, called from coin.rs 577-616) work for paths of any length with the parity of the tree.
* C74: `ShuffleProof` (bulletproofs/tests/r1cs.rs 20-166) function by function. Completeness runs the callback in the prover's second phase (`wpc`) and composes with C09. Soundness: the callback's constraints say that the products of all `x_i - z` and `y_i - z` agree; two lists of length k that are not permutations of each other have equal products for at most k values of z; composed with C66 for accepted proofs. For proofs of the repository's own prover, on any lists, `PropsShuffleExact.v` says exactly when they are accepted: C10 with the transcript of the second phase, and the value of the one constraint of the callback that can fail.
* C75: the prover and verifier of the bench (accumulator.rs 55-319; both `cfg` branches compute the same, the sequential one is modelled) are the membership gadgets followed by `commit_vec` of the leaf and `select`. Completeness composes C48 with C29 and batches of copies with C19. What a satisfied circuit says is proved for the even verifier; that only elements of leaves are accepted is refuted with the forged paths of C68, and with the zeros of leaves that are not full. What remains true of accepted proofs (`C75_sound_partial`): the prover either knows a relation between the generators or an opening, with the element among its entries, of the point that stands for the leaf.
* C76: the public element is a constant of the circuit and not part of the transcript. The verification equation of an honest run is one equation in z that the constants enter linearly (`late_exact`), so a prover first runs the protocol and then solves for the element. `late_element` is that solution for `select`; it is in the leaf only for few z.
* C77: the gadget theorems C27 and C28 are put together with C08, C10 and C66. The prover does not look at whether the value fits, so it returns a proof for a value that is too large; C10 makes its rejection exact and `batching_z` bounds the unlucky z.
* C78: in the example circuit only the last constraint can fail and the public value enters it as a constant, so acceptance is decided by the equation for each public value separately, even one chosen after the proof.
* C79: the circuits are chains of linear constraints; the batched constraint is a polynomial in z whose coefficients are the residues of the equations, so a wrong value is refused outside of its roots. Soundness is C66_extraction, where linear constraints always hold.
* C80: the product claim holds for the repo's prover and is refuted for a cheating one: C67 applied to the circuit of the test, whose only gate is multiplied with the first entry of the single vector.
* C81: the attacker of C68 on every path of a batch; only the last level of `m_odd_levels` is changed.
* C82: induction over the paths with the sessions of C48; the refutation compares the padded sizes of the circuit of one path and of all paths (C70) with the number of rounds of the proof.
* C83: the verifier of `curve_tree_verifier.rs` with a switch that adds the constraint missing in C36 (off: proved equal to the code). Walk from the root to the leaves: at every level the opened node either has the values of a node of the tree, and the selected child is re-randomized by the scalar of its digits, or openings and tree give an explicit relation between generators.
* C84: the counts of C70, now also saying that the gadgets defer nothing to the second phase, give every payment with paths of the same height a tuple of the same size; C19 and C20 then hold for whole blocks. Honest payments have that height (C56).
* C85: C19 and C20 are about circuits without a second phase; counting the multipliers that the callback of the shuffle adds, `2 (k - 1)`, gives all shuffles of `k` values tuples of one size, and the arguments of C19, C20 apply again. C74 supplies the honest proofs, and the refusal of wrong ones (`C85_wrong_shuffle` in `PropsShuffleExact.v`).
* C86: running the loop of `select` on arbitrary values leaves all constraints satisfied but the last, which is the product of the differences; with C10 this decides acceptance of the prover's proofs. The attacker changes one gate output and uses C67.
* C87: the circuit is the lookup gadget of C30 with two equalities; completeness from C08 with the number of multipliers counted as in C70, the meaning of the circuit from the soundness of the gadget and, for each column, the assignment of the prover. For values that are not in the column all constraints but the last two hold, so C10 leaves a polynomial of degree one in `z`.

The status actually reached is in `MANIFEST.json`.
