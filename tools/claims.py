c("C01", "proved", "C01_lockstep C01_lockstep_phase2 C01_commit_vars")
c("C02", "proved", "C02_gates C02_stable C02_returned")
c("C03", "proved", "C03_lc_algebra")
c("C04", "proved", "C04_flatten_value C04_flatten_total C04_prover_same")
c("C05", "proved", "C05_batching C05_batching_z C05_satisfied")
c("C23", "proved", "C23_growth C23_share")
c("C24", "partial", "C24_aggregated_partial C24_aggregated_refuted", "Holds for n > 0; for n = 0 with two or more parties the iterator panics on an index, shown by the refutation.")
c("C25", "proved", "C25_vecpoly C25_poly_eval C25_vecpoly1 C25_vecpoly3")
c("C26", "proved", "C26_exp_iter C26_scalar_exp C26_sum_of_powers")
c("C59", "proved", "C59_challenge C59_hash_to_point")
c("C11", "proved", "C11_ipp_complete C11_create_total C11_same_transcript")
c("C12", "proved", "C12_verification_scalars")
c("C13", "proved", "C13_ipp_special_sound", "The extractor is a function of the challenges and final scalars alone, the same for all groups and generators.")
c("C06", "proved", "C06_slots")
c("C07", "proved", "C07_coefficient")
c("C08", "proved", "C08_complete C08_prove_total")
c("C09", "proved", "C09_complete_phase2 C09_phase2_vector_panics", "Second-phase multipliers together with vector commitments panic in the prover; completeness covers every run that returns a proof.")
c("C10", "proved", "C10_exact C10_exact_phase2")
c("C14", "partial", "C14_short_never_accepted_partial C14_aligned_partial C14_short_panics_refuted C14_long_ignored_refuted C14_forgery C14_forgery_refuted", "False in the code: too few R points panic, surplus R points are ignored by the inner-product verifier and shift the scalars of the R1CS check, so a proof of the unsatisfiable circuit 1 = 0 is accepted. C14_aligned_partial: with equally many L and R points the lists are aligned.")
c("C15", "partial", "C15_no_panic_partial C15_short_T_panics C15_short_T_refuted", "No panic for proofs with enough T and R points; with too few T points the release verifier panics on every proof whose points are not the identity.")
c("C16", "partial", "C16_debug_partial C16_ignored_T C16_malleable_refuted C16_decode_partial C16_encodings_refuted", "False in release builds: the T point at the operation degree and surplus T points are ignored. Debug builds check both. As bytes, a proof decodes back uniquely only up to the phase flag and trailing bytes: any flag other than 1 and anything after the proof is accepted.")
c("C17", "proved", "C17_prover C17_verifier")
c("C18", "partial", "C18_seventeen_partial C18_eighteen_panics C18_eighteen_refuted", "Holds up to 17 vector commitments; from 18 on the prover panics and the verifier accepts nothing.")
c("C19", "proved", "C19_batch_complete")
c("C20", "proved", "C20_batch_sound C20_batch_of_one")
c("C21", "partial", "C21_sizes_refuted C21_empty_refuted C19_batch_complete", "False for different padded sizes: two valid proofs are rejected together; an empty batch panics. Equal sizes are C19.")
c("C27", "proved", "C27_range_sound C27_range_sound_repr")
c("C28", "proved", "C28_range_complete C28_range_exact C28_range_rejects C28_range_wide_panics")
c("C29", "proved", "C29_select_sound C29_select_complete C29_select_rejects C29_select_empty_panics C29_select_verifier_total")
c("C30", "proved", "C30_lookup_sound C30_lookup_complete")
c("C31", "partial", "C31_curve_check_exact C31_curve_check_partial C31_curve_check_refuted", "The gadget enforces y^2 = x^3 + a*x^2 + b: right for a = 0 (all curves in use), wrong otherwise.")
c("C32", "proved", "C32_checked_add_sound C32_checked_add_complete")
c("C33", "partial", "C33_incomplete_add_partial C33_incomplete_add_free_slope C33_incomplete_refuted", "Holds unless both inputs are the same point; then every slope satisfies the constraints, even outputs off the curve.")
c("C34", "proved", "C34_tables_decompose C34_tables_exist_iff C34_tables_exist")
c("C35", "partial", "C35_rerandomize_complete_partial C35_rerandomize_panics C35_exceptional_scalars C35_rerandomize_zero_refuted", "Complete for every scalar outside an explicit set of at most 81 exceptional scalars; for those, zero included, the prover panics.")
c("C36", "partial", "C36_any_target_refuted C36_rerandomize_sound_partial C36_modulus_condition C36_pasta_not_apart C36_rerandomize_sound_refuted", "False for the code: the first accumulator is unconstrained, so nearly every target point is accepted. Proved for the gadget with the first accumulator tied to the first lookup, under a condition on the modulus.")
c("C22", "proved", "C22_same_commitment C22_linear C22_blinding C22_concatenation C22_total", "Vectors of equal length per generator set, as in the code.")
c("C37", "partial", "C37_selects_child C37_any_public_point_refuted C37_sound_refuted C37_single_level_sound_partial", "For the code only the selection half holds: some child slot holds the x of a curve point. The public point is not bound to it (consequence of C36). Full soundness is proved for the gadget with the first accumulator tied, a = 0 and a condition on the modulus.")
c("C38", "proved", "C38_empty_slot_not_selected C38_all_empty_rejected C38_curves_in_use", "Curves with a = 0.")
c("C39", "proved", "C39_single_level_complete C39_single_level_panics", "Curves with a = 0. The provisos are necessary: otherwise the prover panics.")
c("C40", "partial", "C40_selects_children C40_any_public_sum_refuted C40_batched_sound_partial C40_batched_complete C40_batched_panics C40_same_child_panics", "Same gap as C37 in soundness. Complete unless an addition is exceptional; two paths that select the same child one after the other make the prover panic.")
c("C41", "proved", "C41_from_set", "Addressing by index is stated for capacities L^h that fit in a 64-bit usize.")
c("C42", "partial", "C42_increase_height_partial C42_leaves_kept C42_tall_tree_refuted", "Height and element count always; indices keep their leaves while L^height < 2^64. Beyond that leaves become unreachable (C42_tall_tree_refuted), but an index never denotes another leaf (C42_leaves_kept).")
c("C43", "proved", "C43_well_committed")
c("C44", "proved", "C44_witness_path", "For capacities L^h that fit in a 64-bit usize.")
c("C45", "partial", "C45_out_of_range_partial C45_alias_refuted", "Rejected up to the capacity; indices beyond the capacity are taken modulo the capacity.")
c("C46", "partial", "C46_terminates_partial C46_unary_diverges_refuted", "Terminates for every L except 1; with L = 1 and two leaves the loop never ends.")
c("C47", "partial", "C47_same_circuits_partial C47_single_leaf_refuted C47_second_tree_refuted", "Proved for tree index 0 and height at least 1. A tree that is a single leaf makes the verifier panic on the prover's path; with tree index 1 the verifier builds another circuit and rejects honest proofs.")
c("C48", "partial", "C48_complete_partial", "Tree index 0, height at least 1, scalars for which the prover does not panic (see C35, C39), proof points not the identity (see C08), curves with a = 0. That the proofs can be made at all is C70.")
c("C49", "partial", "C49_debug_length C49_parity C49_inner_node_refuted", "Holds with debug assertions only. In release mode the verifier accepts honest proofs for shorter paths of the same parity, which select an inner node of the tree.")
c("C50", "partial", "C50_same_circuits_partial C50_single_leaf_refuted", "Proved for every forest with as many trees as indices and height at least 1. When the trees are single leaves the prover succeeds and the verifier panics.")
c("C61", "partial", "C61_batched_complete_partial", "Height at least 1, scalars for which the prover does not panic, partial sums of children and re-randomisations that never hit the exceptional cases of the addition formulas, proof points not the identity, curves with a = 0.")
c("C57", "proved", "C57_proof C57_path C57_transaction C57_multipath_injective", "For vectors shorter than 2^64 and any encoding of points and scalars that round-trips.")
c("C58", "partial", "C58_proof_partial C58_rest C58_unequal_refuted", "For proofs exactly when the two vectors of the inner-product proof have equal length (always so for proofs made by the prover); otherwise the announced size is wrong. Paths and transactions always.")
c("C62", "proved", "C62_no_identity C62_error", "The phase-two points A_I2, A_O2, S2 and the unused T entry are not validated by the code and not claimed.")
c("C52", "partial", "C52_spend_partial C52_single_leaf_refuted", "Trees of height at least 1 and scalars for which the path prover does not panic, curves with a = 0. In a tree that is a single leaf the assertion fails for every coin whose commitment is not the identity.")
c("C53", "proved", "C53_conservation", "As integers the sums are equal if the spent values are below 2^64 and the scalar field has at least 65 bits; otherwise modulo the field size.")
c("C54", "partial", "C54_error_partial C54_signature_refuted", "False for the code: the boolean returned by the signature check is dropped. Only an error of the check (never returned by Schnorr) stops the verification.")
c("C55", "partial", "C55_same_coin_refuted", "False for the code: every honest coin can be used for both inputs and its value minted twice in one pour. The check that the two keys differ is left to the caller.")
c("C56", "partial", "C56_complete_partial C56_transaction_partial C56_wide_tree_refuted C56_unary_tree_refuted", "Proved for 2 <= L <= 128, and for larger L if the tree has height at least 2. For height 1 and L > 128 the verifier pads to another size and panics on every honest pour; for L = 1 it always panics. Proof points not the identity as in C08.")
c("C63", "partial", "C63_panic_refuted", "False for the code: undecodable bytes, paths of the wrong shape and proofs that are rejected early all panic.")
c("C60", "proved", "C60_first_phase C60_coefficients", "In a group spanned by the blinding generator (a group of prime order). A_I1, A_O1, S1 for circuits with and without a second phase; the T commitments with all other randomness fixed.")
c("C64", "proved", "C64_witness_indistinguishable C64_same_proof", "One-phase circuits in a group spanned by the blinding generator; tapes whose challenge x is zero are left out. Circuits with a second phase are not covered: the code reuses no randomness there, but their callbacks see challenges that depend on the first-phase points.")
c("C65", "partial", "C65_index_hiding_partial", "Tree index 0, height at least 1, curves with a = 0, groups spanned by their blinding generators. Missing: positions whose transported scalars make the prover of the other position panic (negligible on the real curves), tapes whose challenge x is zero, and the batched prover.")
c("C51", "partial", "C51_path C51_batched C51_pour_partial C51_batched_refuted C51_pour_refuted C51_keys_refuted C51_root_refuted", "Proved for the path of the single verifier, the batched path (odd circuit), and the paths and minted commitments of a pour. False in four places: the even circuit of the batched verifier does not absorb the odd points it takes as input, the root is not absorbed, the public keys of a pour are not absorbed, and below an even root the boundary between the two paths of a pour is ambiguous.")
c("C66", "partial", "C66_extraction C66_sound_gates_partial C66_sound_even_partial C66_sound_refuted", "For algebraic provers (every point comes with coefficients over the generators) and fixed challenge sets of bounded size. Linear constraints always hold; gates hold up to the term v_i * oR_i of the last vector commitment (C66_extraction); all gates hold with an even number of vector commitments without components on H (needed: C71). False with an odd number: an unsatisfiable circuit with independent generators has an accepted proof. Also needs that both vectors of the inner-product proof have equal length (C14).")
c("C67", "proved", "C67_gates_forgeable", "The forged proof is computed by the model of a cheating prover (Forge.v). Points that the verifier rejects when they are the identity must not be the identity, as in C08.")
c("C68", "partial", "C68_any_point_refuted", "False for the code: the accumulator of the re-randomization circuit is not tied to its first window (C36), so for every leaf a cheating prover shows a path ending in any point but at most 2 * windows + 1, without knowing a scalar or an opening; both circuits are satisfied and the R1CS proofs accepted. What does hold is proved in C36, C39, C40 (with the first window tied) and C49.")
c("C69", "partial", "C69_counterfeit_refuted C69_transaction_refuted", "False for the code, by C68: with two made-up coins of any value at the position of any leaf, any two coins are minted; the pour and the signed transaction are accepted. Same restriction on the branching factor as C56. Proof points not the identity as in C08.")
c("C70", "proved", "C70_path_size C70_path_capacity C70_path_too_high C70_batched_size C70_batched_capacity C70_pour_capacity C70_pour_too_high C70_configurations", "Tree index 0, height at least 1, curves with a = 0, challenges that are not zero, proof points not the identity for acceptance (as in C08). Same restriction on the branching factor as C56 for pours.")
c("C71", "proved", "C71_gates_forgeable C71_sound_even_refuted", "The commitment and the proof are computed by the model of a cheating prover (ForgeVec.v). The second theorem is an unsatisfiable circuit with two vector commitments and independent generators that has an accepted proof. Points that the verifier rejects when they are the identity must not be the identity, as in C08.")
c("C72", "partial", "C72_inflation_refuted C72_conservation_partial", "False for the code, by C71: a payer who owns two coins of the tree, the second not worth zero, mints a coin of any value below 2^64. The other minted commitment has a coefficient on a generator H, which cancels one violated gate of its range proof. C72_conservation_partial is the part that holds, about accepted proofs: a payer that knows the coefficients of its points, uses no generator H in its vector commitments and has an even number of inner nodes on the two paths knows openings with equal sums, minted values below 2^64 and tags of the shown keys, or a relation between the generators, or a challenge fell into a small set fixed before it. Same restriction on the branching factor as C56; proof points not the identity as in C08.")
c("C73", "partial", "C73_parity_partial C73_any_tag_refuted C73_depth_refuted", "False for the code; only the parity of the length is enforced. The length of a path is compared with the height of the tree in a debug assertion of the membership verifier that pours do not call. A payer mints a coin whose tag is the x-coordinate of a point they chose (accepted, C73_any_tag_refuted); its commitment is at the same time an inner node, and once it is in the tree they spend made-up coins of any value two levels below it with honest proofs (C73_depth_refuted). Scalars for which the path prover does not panic; proof points not the identity as in C08.")
c("C74", "partial", "C74_shuffle_complete C74_shuffle_circuit C74_shuffle_sound_partial C74_shuffle_exact C74_shuffle_rejects C74_empty_panics C74_lengths_panic", "Completeness is proved in full (challenges that are not zero, proof points not the identity as in C08), and so is the statement about satisfied circuits. Soundness of accepted proofs is partial as in C66: for provers that know the coefficients of their points, with challenges outside small sets fixed before them. For proofs of the repository's own prover acceptance is characterised exactly, and wrong shuffles are refused unless the callback's challenge is one of k values. Without inputs prover and verifier panic.")
c("C75", "partial", "C75_complete C75_circuit C75_any_element_refuted C75_unused_refuted C75_empty_panics C75_both_checked C75_sound_partial", "Completeness is proved for all trees, elements and batches of copies (scalars for which the path prover does not panic; proof points not the identity as in C08), and so is that satisfied circuits open an element of the vector commitment that stands for the leaf. That only elements of leaves are accepted is false: with a forged path as in C68 every element is accepted (C75_any_element_refuted), and zero is accepted for every leaf that is not full (C75_unused_refuted; the bench asserts for the same reason that its element is not zero). Empty leaves and empty batches panic. C75_sound_partial: the prover of an accepted even-side proof knows a relation between the generators or an opening, with the element among its entries, of the point that stands for the leaf; as in C66 this is for provers that know the coefficients of their points and an element fixed before the challenges, and here for an odd number of even inner nodes on the path (see C66 on odd numbers of vector commitments).")
c("C76", "partial", "C76_constants_refuted C76_late_element_refuted", "False for the code: the constants of a circuit are not part of the transcript. C76_constants_refuted says exactly for which changed constants a proof is accepted (one linear equation in powers of z). C76_late_element_refuted: the repository's own prover, run with an element that is not in the leaf, returns proofs that are accepted for another element that is not in the leaf, which is computed from the proof, unless z is one of few values. It is not an element of the attacker's choice.")
c("C77", "partial", "C77_range_complete C77_range_rejects C77_range_sound_partial C77_wide_panics", "Completeness (challenges that are not zero, proof points not the identity as in C08), the rejection of proofs the repository's prover makes for values that are too large, and the panic are proved in full. Soundness against other provers is partial as in C66: for provers that know the coefficients of their points, with challenges outside small sets fixed before them.")
c("C78", "partial", "C78_example_exact C78_example_sound_partial", "Acceptance of the prover's proofs is decided exactly, for every public value (challenges that are not zero, the verifier's random factor not zero, proof points not the identity as in C08). Soundness against other provers is partial as in C66.")
c("C79", "partial", "C79_equal_exact C79_linear_exact C79_fib_exact C79_unconstrained_complete C79_linear_sound_partial C79_fib_sound_partial", "Acceptance of the prover's proofs is decided as stated (challenges that are not zero, the verifier's random factor not zero, proof points not the identity as in C08). Soundness against other provers as far as C66: the prover knows the coefficients of its points, challenges outside of small sets, or a relation between the generators is found; unlike for gates the odd number of vector commitments does no harm to linear constraints.")
c("C80", "partial", "C80_mul_exact C80_mul_refuted", "The prover of the test is accepted exactly if c = a * b. A cheating prover is accepted for every c if a is not zero: with one vector commitment the slots of the commitment and of A_O1 collide (C67), so the claim is false for the circuit of the repo's own test.")
c("C81", "partial", "C81_any_points_refuted", "False for the code, as C68 is: the leaves of all paths are re-randomized with the circuit whose accumulator is not tied to its first window, so one batched proof shows any points, one for each path, with at most 2 * windows + 1 exceptions for each. Same restrictions on the scalars of the inner levels as in C61; proof points not the identity as in C08.")
c("C82", "partial", "C82_naive_complete C82_both_checked C82_one_path_same C82_sequential_refuted C82_grafted_complete", "Proved for the feature parallel, for one path and for the batched proof. False for two or more separate paths without the feature: the bench checks the proof for all paths against the circuit of a single path and panics for every honest proof. Honest proofs whose points are not the identity (C08); scalars with which the nodes can be re-randomized (C48, C61).")
c("C83", "proved", "C83_tied_sound C83_content C83_tied_complete verify_from_code prove_from_code", "Soundness of whole paths for the verifier with the constraint that C36 found missing, in builds with debug assertions (they check the length of the path; without them C73 applies); verify_from_code and prove_from_code show that without it they are the code. In a group of prime order relations between generators and discrete logarithms always exist, so the theorems name the scalars: they are computed from the assignment, the openings and the tree. C83_demo runs an honest prover on the toy tree; C83_forger_test shows that the forger of C68 fails only on the added constraints.")
c("C84", "partial", "C84_branches_agree C84_single C84_batch_complete C84_batch_sound C84_honest_blocks C84_double_spend_refuted", "Equality of the branches, completeness and soundness of the batches are proved in full for payments of one height; payments of other heights (C73) have other sizes and can spoil a batch (C21). Honest payments have the height of the tree. The last part is false for the code: two payments of the same coin are accepted in one block, and the bench of blocks checks no signatures.")
c("C85", "proved", "C85_batch_complete C85_batch_sound C85_helper C85_bench C85_batch_helper C85_wrong_shuffle C85_panics C85_mixed_refuted", "Extends C19 and C20 to circuits with a second phase. Proofs with a point at infinity among the validated points are excluded (C62). Zero shuffles, and shuffles of zero values, panic (C85_panics). The last sentence of the statement is C85_mixed_refuted, a pair of honest shuffles of one and two values. C85_wrong_shuffle: lists that are not permutations make the helper panic and batches fail, unless the challenge of the callback is one of at most k values.")
c("C86", "partial", "C86_select_exact C86_select_refuted C86_select_empty", "For the prover of the repository acceptance is decided exactly (challenges and the scalar of the verifier not zero, proof points not the identity as in C08). The last sentence is false for the code: with one vector commitment gates can be violated (C67), and an attacker who sets the output of the last multiplier to zero is accepted for every value, if the last but one entry of the vector is not zero. For an empty vector prover and verifier panic.")
c("C87", "proved", "C87_lookup_complete C87_lookup_index C87_lookup_circuit C87_lookup_rejects", "Challenges that are not zero and proof points that are not the identity as in C08. Rows are lists, read as zero beyond their end; Rust has arrays of eight. The verifier has no input but the table, so soundness is stated for the assignments of its circuit; what cheating provers can do is C66.")
