{"claims": [
 {"property": "C01", "status": "proved", "theorems": ["C01_bytes_roundtrip", "C01_decode_total_and_positional", "C01_canonical_unique", "C01_negative_aborts"], "note": ""},
 {"property": "C02", "status": "partial", "theorems": ["C02_mod_ops_residue", "C02_residue_unique", "C02_mod_exp", "C02_mod_inverse", "C02_div_exact_or_abort", "C02_to_int_value", "C02_mod_negate_partial", "C02_mod_negate_refuted", "C02_shifts", "C02_bits", "C02_truncated_division"], "note": "ModNegate returns m instead of 0 for non-zero multiples of m (C02_mod_negate_refuted); everything else proved."},
 {"property": "C03", "status": "proved", "theorems": ["C03_record_file_roundtrip", "C03_read_one", "C03_read_terminates"], "note": ""},
 {"property": "C04", "status": "partial", "theorems": ["C04_truncated_file_partial", "C04_truncated_file_short_records", "C04_cut_in_prefix_refuted"], "note": "Exact behaviour at every cut point proved; a cut inside a length prefix is undefined behaviour in the code (C04_cut_in_prefix_refuted), so the 'or an error' part fails there."},
 {"property": "C05", "status": "proved", "theorems": ["C05_line_file_roundtrip", "C05_line_reader_characterised", "C05_pieces_unique", "C05_reported_unique", "C05_long_line_refuted", "C05_nul_refuted", "C05_trailing_cr_refuted"], "note": "The round trip for unrestricted lines is false (three _refuted witnesses); the stated characterisation is proved."},
 {"property": "C06", "status": "proved", "theorems": ["C06_no_loss_no_duplication", "C06_no_fault_succeeds", "C06_prefix_change_refuted"], "note": "Without the same-prefix guard shard names can collide and a shard is lost (C06_prefix_change_refuted)."},
 {"property": "C07", "status": "proved", "theorems": ["C07_any_interleaving"], "note": ""},
 {"property": "C08", "status": "partial", "theorems": ["C08_failure_is_sticky", "C08_ok_means_no_failure", "C08_close_resets_partial", "C08_close_failure_refuted", "C08_failed_fclose_then_ok_refuted"], "note": "Stickiness and visibility proved for every history and fault pattern; 'Close resets to a fresh writer' proved when no fclose failed and refuted otherwise (C08_close_failure_refuted)."},
 {"property": "C09", "status": "proved", "theorems": ["C09_multi_reader_merges", "C09_permutation"], "note": ""},
 {"property": "C10", "status": "proved", "theorems": ["C10_merge_sorted_permutation", "C10_no_shards"], "note": ""},
 {"property": "C11", "status": "proved", "theorems": ["C11_process_is_sorted_map", "C11_transform_error_reported", "C11_input_deleted_refuted"], "note": "Without the naming guard the input file is overwritten and deleted (C11_input_deleted_refuted). I/O faults are not part of this theorem; see C84."},
 {"property": "C12", "status": "proved", "theorems": ["C12_threads_cover_chunk", "C12_ranges_disjoint_in_bounds", "C12_ranges_cover", "C12_zero_threads_divides_by_zero", "C12_zero_chunk_never_ends"], "note": ""},
 {"property": "C13", "status": "proved", "theorems": ["C13_escape_split_roundtrip", "C13_split_cells", "C13_nul_truncates", "C13_total_on_ascii", "C13_high_byte_undefined_refuted"], "note": "Unquoted bytes >= 0x80 reach isspace() as a negative char, which is undefined behaviour (C13_high_byte_undefined_refuted)."},
 {"property": "C14", "status": "proved", "theorems": ["C14_server_roundtrip", "C14_client_roundtrip", "C14_write_reports", "C14_missing_file", "C14_server_read_all_or_nothing", "C14_client_read_all_or_nothing", "C14_lines_are_the_file", "C14_unguarded_refuted"], "note": "Proved for cells without line breaks and NUL bytes; the unguarded statement is false (C14_unguarded_refuted)."},
 {"property": "C15", "status": "partial", "theorems": ["C15_illegal_sizes_rejected", "C15_databases_consistent_partial", "C15_every_database_possible", "C15_no_overflow_when_small_partial", "C15_overflow_refuted", "C15_zero_bound_refuted"], "note": "Sizes, intersection and sum are proved when no 64-bit overflow occurs; overflow and a zero value bound are refuted by witnesses."},
 {"property": "C16", "status": "proved", "theorems": ["C16_join_path"], "note": ""},
 {"property": "C17", "status": "proved", "theorems": ["C17_oracle_in_range", "C17_supported_sizes", "C17_oracle_value", "C17_oracle_value_applies", "C17_reduction_nearly_uniform"], "note": "The documented limit of 130048 bits is not the limit enforced by the code; C17_supported_sizes states the real one."},
 {"property": "C18", "status": "proved", "theorems": ["C18_prf_first_candidate", "C18_prf_in_range", "C18_prf_deterministic", "C18_prf_complete", "C18_prf_aborts", "C18_prf_may_not_end"], "note": ""},
 {"property": "C19", "status": "proved", "theorems": ["C19_crt", "C19_not_coprime_aborts"], "note": ""},
 {"property": "C20", "status": "proved", "theorems": ["C20_fixed_base_exp", "C20_simple_any_modulus", "C20_negative_rejected", "C20_two_k_ary_aborts"], "note": "The 2^k-ary variant needs an odd modulus > 1 and a base below the modulus; otherwise it aborts (C20_two_k_ary_aborts)."},
 {"property": "C21", "status": "partial", "theorems": ["C21_product_of_powers", "C21_product_of_powers_montgomery", "C21_illegal_rejected", "C21_large_batch_refuted", "C21_negative_uses_magnitude"], "note": "Proved for batch sizes up to 30; batch sizes of 31 or more shift an int too far (C21_large_batch_refuted)."},
 {"property": "C22", "status": "proved", "theorems": ["C22_sound_and_exhaustive", "C22_complete", "C22_create", "C22_wide_gap_refuted"], "note": "Proved when max and precompute bits are at most 30 apart; a wider gap is accepted by Create and undefined in GetDiscreteLog (C22_wide_gap_refuted)."},
 {"property": "C23", "status": "proved", "theorems": ["C23_private_roundtrip", "C23_key_creation", "C23_equal_primes_abort", "C23_generated_key", "C23_generate_rejects"], "note": ""},
 {"property": "C24", "status": "proved", "theorems": ["C24_public_roundtrip", "C24_generator_path", "C24_explicit_randomness", "C24_reported_randomness"], "note": ""},
 {"property": "C25", "status": "proved", "theorems": ["C25_homomorphism"], "note": ""},
 {"property": "C26", "status": "proved", "theorems": ["C26_reported_randomness", "C26_plain_encrypt"], "note": ""},
 {"property": "C27", "status": "proved", "theorems": ["C27_out_of_range_rejected", "C27_units_decrypt", "C27_non_units_abort"], "note": ""},
 {"property": "C28", "status": "proved", "theorems": ["C28_decrypt_encrypt", "C28_encrypt_total", "C28_decrypt_reencrypt", "C28_canonical"], "note": ""},
 {"property": "C29", "status": "proved", "theorems": ["C29_layers_commute", "C29_layers_removed", "C29_encryption_order"], "note": ""},
 {"property": "C30", "status": "proved", "theorems": ["C30_double_encryption_compares", "C30_double_encryption_total"], "note": ""},
 {"property": "C31", "status": "proved", "theorems": ["C31_keys_accepted", "C31_hash_type_check", "C31_key_roundtrip", "C31_new_key", "C31_seeds", "C31_seeds_deterministic", "C31_seed_large_order_aborts", "C31_seed_zero_key"], "note": "Also records that seed-derived keys may be zero (C31_seed_zero_key) and that seeds abort on curves of order above 512 bits (C31_seed_large_order_aborts)."},
 {"property": "C32", "status": "proved", "theorems": ["C32_malformed_rejected", "C32_wellformed_accepted"], "note": ""},
 {"property": "C33", "status": "proved", "theorems": ["C33_hash_gives_curve_point", "C33_hash_deterministic", "C33_hash_outcomes", "C33_sswu"], "note": ""},
 {"property": "C34", "status": "partial", "theorems": ["C34_recover_refuted", "C34_recover_partial", "C34_padding_outcomes", "C34_wide_padding_undefined"], "note": "False as stated at the boundary m*2^k + 2^k - 1 = p, which the range check admits (C34_recover_refuted, on P-256's own constants). C34_recover_partial proves recovery for every other non-negative message; C34_padding_outcomes says exactly when padding succeeds."},
 {"property": "C35", "status": "proved", "theorems": ["C35_expressions_decrypt", "C35_matching_keys", "C35_key_pairs", "C35_rerandomize_changes", "C35_zero", "C35_keys_accepted", "C35_bytes_roundtrip", "C35_bytes_total", "C35_public_only", "C35_key_bytes_roundtrip", "C35_identity_undecodable"], "note": ""},
 {"property": "C36", "status": "proved", "theorems": ["C36_threshold", "C36_missing_holder", "C36_combine_requires"], "note": ""},
 {"property": "C37", "status": "proved", "theorems": ["C37_reencrypt_commutes", "C37_encrypted_point"], "note": ""},
 {"property": "C38", "status": "proved", "theorems": ["C38_intersection_sum", "C38_completes"], "note": ""},
 {"property": "C39", "status": "proved", "theorems": ["C39_multiset_result", "C39_size_unique"], "note": ""},
 {"property": "C40", "status": "proved", "theorems": ["C40_reply_order", "C40_refusals", "C40_finished_before_sending"], "note": ""},
 {"property": "C41", "status": "proved", "theorems": ["C41_finishing", "C41_finished_iff", "C41_output", "C41_successful_round_one_refuted"], "note": ""},
 {"property": "C42", "status": "proved", "theorems": ["C42_rpc", "C42_status_map", "C42_server_rpc"], "note": ""},
 {"property": "C43", "status": "proved", "theorems": ["C43_keys_constructible", "C43_decrypt_inverts_encrypt", "C43_random_encryption", "C43_encryption_available", "C43_encryption_rejects", "C43_generated_keys", "C43_generated_from_primes"], "note": ""},
 {"property": "C44", "status": "proved", "theorems": ["C44_homomorphism"], "note": ""},
 {"property": "C45", "status": "proved", "theorems": ["C45_decrypt_sound"], "note": ""},
 {"property": "C46", "status": "proved", "theorems": ["C46_public_key_roundtrip", "C46_public_key_validated", "C46_private_key_roundtrip", "C46_key_reload", "C46_ciphertext_roundtrip", "C46_ciphertext_validated", "C46_short_ciphertext_accepted", "C46_hostile_key_aborts"], "note": "The validation theorems state exactly what is accepted. C46_short_ciphertext_accepted and C46_hostile_key_aborts record two inputs that pass validation and later abort or read out of bounds in Multiply, Add or the constructor."},
 {"property": "C47", "status": "proved", "theorems": ["C47_create", "C47_commit_value", "C47_commit_verifies", "C47_random_commit", "C47_verify_iff", "C47_verify_refuses", "C47_homomorphism", "C47_negative_scalar_aborts", "C47_received_parameters"], "note": ""},
 {"property": "C48", "status": "proved", "theorems": ["C48_honest_proof_verifies", "C48_verify_iff", "C48_special_soundness", "C48_trusted_honest_verifies", "C48_trusted_verify_iff", "C48_trusted_soundness", "C48_trusted_soundness_refuted", "C48_trusted_soundness_safe_primes", "C48_generated_parameters", "C48_generated_parameters_provable"], "note": "The proviso on the single-challenge variant is necessary: C48_trusted_soundness_refuted shows two accepting transcripts for a g that is no power of h."},
 {"property": "C49", "status": "proved", "theorems": ["C49_create", "C49_apply", "C49_function", "C49_keys_honest", "C49_verify_keys", "C49_keys_soundness", "C49_apply_honest", "C49_verify_apply", "C49_apply_soundness", "C49_prover_sizes"], "note": "Soundness is the two-transcript (special) soundness statement; the honest prover fails with Internal when a dummy value is a multiple of the order (covered exactly)."},
 {"property": "C50", "status": "proved", "theorems": ["C50_create", "C50_function", "C50_keys", "C50_request", "C50_evaluation"], "note": "All failure cases are stated: unusable encryption randomness, a vanishing denominator, a vanishing dummy value; the honest request proof can be refused when a masked randomness shares a factor with n."},
 {"property": "C51", "status": "partial", "theorems": ["C51_request_challenge_binding", "C51_response_challenge_binding", "C51_request_response_disjoint", "C51_schemes_disjoint", "C51_pedersen_challenge_ambiguous_refuted", "C51_pedersen_challenge_sized_partial", "C51_keys_challenge_binding", "C51_apply_challenge_binding", "C51_apply_challenge_values", "C51_challenges_disjoint"], "note": "Injectivity of the hashed bytes proved for the DY VRF and oblivious-signature proofs, with disjointness of their domains; refuted for the Pedersen parameter proof, whose concatenation is ambiguous (C51_pedersen_challenge_ambiguous_refuted)."},
 {"property": "C52", "status": "proved", "theorems": ["C52_elgamal_public", "C52_elgamal_ciphertext", "C52_elgamal_private", "C52_ec_key", "C52_pedersen_parameters_roundtrip", "C52_pedersen_parameters_checked", "C52_bignum_vector", "C52_bignum_vector_parse", "C52_point_vector", "C52_point_vector_parse"], "note": ""},
 {"property": "C53", "status": "partial", "theorems": ["C53_counter_injective_partial", "C53_counter_collision_refuted"], "note": "Injective while the counter fits in one byte; above that two different inputs can share a hash input (C53_counter_collision_refuted)."},
 {"property": "C54", "status": "proved", "theorems": ["C54_montgomery_transparent"], "note": ""},
 {"property": "C55", "status": "proved", "theorems": ["C55_is_curve_point", "C55_random_point", "C55_hash_agrees", "C55_sswu_encrypt"], "note": ""},
 {"property": "C56", "status": "proved", "theorems": ["C56_exit_code_zero", "C56_written_files"], "note": ""},
 {"property": "C57", "status": "partial", "theorems": ["C57_accepts", "C57_response_sound", "C57_create_bound_refuted"], "note": "Proved (special soundness) for parameters with 3*2^(2c+2s) q^3 <= n^s; refuted for the bound Create itself checks (2*2^(2c+2s) q^3): C57_create_bound_refuted gives accepted parameters and a wrong response with two accepting proofs. The step from two accepting proofs to one accepting proof and a random hash function is C75."},
 {"property": "C58", "status": "partial", "theorems": ["C58_server_survives_partial", "C58_server_aborts", "C58_server_survives_refuted", "C58_client_survives_partial", "C58_client_aborts", "C58_client_survives_refuted"], "note": "Refuted as stated: a round one with an even or zero Paillier modulus (and, with the two_k_ary_exp flag, a modulus of 1) aborts the server (C58_server_aborts); a round two whose in-range sum is not coprime to n aborts the client (C58_client_aborts). Proved for every other message, so both guards are exact. Exhausted randomness (Diverge) counts as surviving."},
 {"property": "C59", "status": "partial", "theorems": ["C59_request_check_partial", "C59_answer", "C59_generated_keys", "C59_make_request_partial", "C59_response_check", "C59_incomplete_messages", "C59_unchecked_use", "C59_request_check_refuted", "C59_vrf_checks", "C59_parameters_check_partial", "C59_trusted_check_partial", "C59_trusted_length_aborts", "C59_trusted_check_refuted"], "note": "Refuted as stated: a request proof without openings, a ciphertext with a component missing or a public key without entries makes the oblivious-signature code index out of bounds (C59_incomplete_messages, C59_request_check_refuted); the challenge length of a trusted-modulus proof is chosen by its sender and aborts the verifier above 130047 (C59_trusted_length_aborts); so does a negative response. Proved without any hypothesis on the messages for the VRF proofs, for responses to one's own requests, and for answering accepted requests; proved for complete messages elsewhere."},
 {"property": "C60", "status": "partial", "theorems": ["C60_one_challenge", "C60_guessing", "C60_minimum_refuted"], "note": "At most one challenge proved, and shown to be tight (C60_guessing). The verifier takes the number of repetitions from the proof, so a proof with one repetition of a false statement can be accepted (C60_minimum_refuted)."},
 {"property": "C61", "status": "partial", "theorems": ["C61_file_roundtrip", "C61_write_reports", "C61_messages", "C61_concatenation_merges", "C61_unreadable_reported", "C61_truncated", "C61_garbage_refuted"], "note": "Round trip, fault reporting and truncation proved for every message type with a decodable encoding, and the three key messages shown to be such. That non-messages are refused is false: FromString ignores the parser's verdict, so a garbage record loads as the private key 0 and a damaged message loads without its damaged field (C61_garbage_refuted). A cut inside a length prefix is undefined behaviour (C04)."},
 {"property": "C62", "status": "proved", "theorems": ["C62_joint_key_files", "C62_generation_succeeds", "C62_public_file_replaced", "C62_mixed_generators_abort", "C62_no_files", "C62_unreadable_share", "C62_ec_key_file"], "note": "Also recorded: shares with different generators abort the process (C62_mixed_generators_abort) and a failed generation may leave a replaced public key file without its private key (C62_public_file_replaced)."},
 {"property": "C63", "status": "partial", "theorems": ["C63_never_undefined_partial", "C63_failed_close_refuted", "C63_open_discipline", "C63_reads_in_order", "C63_no_false_end", "C63_writes_complete", "C63_record_loop", "C63_record_loop_no_faults", "C63_read_exact"], "note": "Proved for every history in which no fclose fails, with all other faults allowed. The claim without that condition is false: after a failed fclose the object keeps the released stream, and closing or destroying it is undefined (C63_failed_close_refuted). Partially written data of a failed write is not specified."},
 {"property": "C64", "status": "partial", "theorems": ["C64_session_any_files", "C64_session", "C64_close_resets", "C64_open_during_session", "C64_failed_close", "C64_failed_open_is_final", "C64_failed_clean_up_refuted", "C64_reopen_refuted", "C64_order_after_error_refuted"], "note": "Sessions, resetting by Close and the refused second Open are proved for all histories. The last part is false: after a failed Open every later call returns an internal error for ever (C64_failed_open_is_final, C64_reopen_refuted), and after a read error later successful reads may come out of order and a record may be delivered together with an error (C64_order_after_error_refuted). A Close that fails is reported and every later Open is refused (C64_failed_close). An fclose that fails while a failed Open closes the files again makes a later question for more records, or that Open itself, undefined (C64_failed_clean_up_refuted)."},
 {"property": "C65", "status": "partial", "theorems": ["C65_key_proof_hides", "C65_apply_proof_hides", "C65_params_proof_hides", "C65_trusted_proof_hides", "C65_request_hides", "C65_response_hides", "C65_response_opening", "C65_response_opening_refuted"], "note": "Proved for the VRF key proof (2*2^-s), the VRF evaluation proof ((messages+3)*2^-s), the two Pedersen parameter proofs, the oblivious-signature request ((7m+7+k)*2^-s plus the draws that are not coprime to n) and, when the Pedersen modulus is at most u times the Camenisch-Shoup modulus, the response ((2m+len+u)*2^-s), whose simulator gets the signatures, the masks of the requester and a commitment to m numbers (C99 also removes the commitment). Without that relation the response does not hide the opening of its commitment: C65_response_opening gives the leak for every response and C65_response_opening_refuted two openings of one commitment that are told apart with certainty. The challenge is fixed in advance (honest-verifier simulation with a programmed hash function); C79 takes the step to an observer who queries the hash function."},
 {"property": "C66", "status": "proved", "theorems": ["C66_common_subgroup_hides", "C66_generated_parameters_hide", "C66_every_commitment_opens_to_everything", "C66_received_parameters_refuted"], "note": ""},
 {"property": "C67", "status": "partial", "theorems": ["C67_reply_hides_partial", "C67_reply_gives_parity", "C67_size_and_sum_refuted"], "note": "Refuted as stated (C67_size_and_sum_refuted): the server masks the sum with powers of minus a square, whose Jacobi symbol is 1, while the client's own ciphertexts have Jacobi symbol +1 or -1 depending on exponents the client chose, so the symbol of the reply gives the client the parity of those exponents over the rows the server has (C67_reply_gives_parity), e.g. which of two customers with equal values the server has. Proved: datasets that agree in size, sum and that parity give distributions that differ in at most p + q - 1 of the p q draws, for generators not congruent to 1 or -1 modulo p or q."},
 {"property": "C68", "status": "proved", "theorems": ["C68_one_identifier", "C68_two_identifiers", "C68_one_point", "C68_exactly_one_key", "C68_lists_refuted"], "note": "The property is stated for one identifier per key. C68_lists_refuted shows why it cannot be extended: under one key equality of identifiers shows. That nothing else shows is a computational assumption (DDH) outside the model."},
 {"property": "C69", "status": "proved", "theorems": ["C69_like_fresh", "C69_same_plaintext", "C69_computations", "C69_tight"], "note": ""},
 {"property": "C70", "status": "proved", "theorems": ["C70_request_hides", "C70_same_for_all_messages", "C70_rarely_unusable"], "note": ""},
 {"property": "C71", "status": "proved", "theorems": ["C71_view_hides", "C71_same_for_all_messages", "C71_rarely_unusable"], "note": ""},
 {"property": "C72", "status": "partial", "theorems": ["C72_decrypted_value_partial", "C72_honest_below_bound", "C72_signs_committed_bounded_partial", "C72_signs_committed_messages_refuted"], "note": "Refuted as stated: for every system, key pair, hash function, list of committed messages and list of other messages, a requester who uses negative masks gets an accepted request whose answer contains signatures on the other messages (C72_signs_committed_messages_refuted). Proved instead: two accepted proofs with one hashed string determine every decrypted value modulo n^s (C72_decrypted_value_partial); if the issuer also refused decrypted values no honest request reaches (C72_honest_below_bound), for a modulus one bit longer than Create demands, the answer would be the signatures on the committed messages (C72_signs_committed_bounded_partial). Missing: the check itself, which the code does not make. How often two accepted proofs are obtained is C77."},
 {"property": "C73", "status": "proved", "theorems": ["C73_any_file", "C73_written_record"], "note": ""},
 {"property": "C74", "status": "partial", "theorems": ["C74_every_answer", "C74_trusted_luck", "C74_prescribed_lengths_partial", "C74_divided_afterwards", "C74_false_statement_accepted_refuted"], "note": "Proved for the proof for a trusted modulus (C74_trusted_luck). Refuted for the repeated one-bit proof: for every hash function there is an accepted proof of a false statement, whatever the number of repetitions (C74_divided_afterwards, C74_false_statement_accepted_refuted); proved for it if the lengths of the numbers in the first message are prescribed (C74_prescribed_lengths_partial). C74_every_answer shows that the random function is no fiction: every table of answers is given by some function with outputs of 64 bytes."},
 {"property": "C75", "status": "proved", "theorems": ["C75_wrong_response_luck"], "note": ""},
 {"property": "C76", "status": "proved", "theorems": ["C76_unequal_key_opens_twice", "C76_wrong_evaluation_opens_twice"], "note": ""},
 {"property": "C77", "status": "proved", "theorems": ["C77_rewinding", "C77_request_means_committed_messages", "C77_wrong_evaluation_opens_twice"], "note": ""},
 {"property": "C78", "status": "partial", "theorems": ["C78_alone", "C78_lock_partial", "C78_key_in_place", "C78_late_refused", "C78_all_answered", "C78_one_result_refuted", "C78_right_result_refuted"], "note": "Refuted as stated, since the handler has no lock: a server that holds its key can be made to answer any number of simultaneous requests (C78_all_answered, C78_one_result_refuted), and a start that overlaps another replaces the key, so an honest client gets size 0 and sum 0 without an error (C78_right_result_refuted). Proved: the step machine is the sequential handler when a call is alone (C78_alone); with a lock every schedule is some one-after-another history (C78_lock_partial); without it, requests that find the key in place do not disturb each other under any schedule (C78_key_in_place), and a request that begins after a result was handed over is refused (C78_late_refused). Accesses are taken to be atomic; in C++ they are data races (C98)."},
 {"property": "C79", "status": "proved", "theorems": ["C79_trusted_proof", "C79_params_proof", "C79_key_proof", "C79_apply_proof", "C79_response", "C79_request", "C79_trusted_guess", "C79_params_guess", "C79_key_guess", "C79_apply_guess", "C79_response_guess", "C79_request_guess"], "note": "For the two Pedersen parameter proofs, the VRF key proof, the VRF evaluation proof, and the oblivious-signature request and response, and every observer (a decision tree that may ask before and after it sees the proof): the advantage is at most num*2^-s plus the share of the draws where the observer asked the prover's question beforehand plus the unusable draws (C79_*_proof, C79_request, C79_response). The share of guessed questions is at most q questions * ceil(B/ord)/B where ord is the order of the base h and B the range of the mask of an opening (C79_*_guess). SHA-512 enters as a random function on the strings that are hashed, answering with the bits of the challenge. For the response the bound contains u with Pedersen modulus <= u * Camenisch-Shoup modulus (see C65)."},
 {"property": "C80", "status": "proved", "theorems": ["C80_every_table", "C80_first_message", "C80_tables_exist"], "note": ""},
 {"property": "C81", "status": "proved", "theorems": ["C81_client_message", "C81_rows_known"], "note": ""},
 {"property": "C82", "status": "proved", "theorems": ["C82_client_view", "C82_collisions", "C82_two_servers"], "note": ""},
 {"property": "C83", "status": "proved", "theorems": ["C83_ciphertexts_hide", "C83_last_share"], "note": ""},
 {"property": "C84", "status": "partial", "theorems": ["C84_ok_is_complete", "C84_failures_reported_partial", "C84_other_files_kept", "C84_failed_peek_aborts_refuted", "C84_failed_close_undefined_refuted", "C84_shards_left_refuted"], "note": "OK implies a complete and correct output under every fault pattern (C84_ok_is_complete); other files are never touched (C84_other_files_kept). That every failure ends in an error status is false: a device error on the first access to the shards aborts the process, because Merge calls value() on the failed HasMore (C84_failed_peek_aborts_refuted), and any failing fclose makes the destructor close the released stream again (C84_failed_close_undefined_refuted). With neither of the two, every failure is an error status, and without failures the call succeeds (C84_failures_reported_partial). After an error the shards stay behind (C84_shards_left_refuted)."},
 {"property": "C85", "status": "partial", "theorems": ["C85_exit_code_zero", "C85_completes", "C85_exit_code_one", "C85_client_prints_the_same", "C85_printed_server_size_refuted", "C85_printed_intersection_refuted", "C85_same_file_refuted", "C85_all_or_nothing_refuted"], "note": "Proved for two different file names; refuted: the size printed for the server dataset is the client's (the flag client_data_size is printed twice), the printed intersection size ignores chance collisions, naming one file twice loses the server dataset with exit code 0, and a failing run can leave a new server file beside an old client file."},
 {"property": "C86", "status": "partial", "theorems": ["C86_same_hash", "C86_same_hash_bytes", "C86_any_mix", "C86_java_curves", "C86_p224_zero", "C86_zero_candidate", "C86_same_hash_refuted", "C86_keys", "C86_keys_refuted", "C86_java_restore", "C86_java_restore_refuted", "C86_defaults_refuted", "C86_encrypt_point", "C86_encrypt_point_refuted", "C86_refused", "C86_refused_refuted"], "note": "Proved when zero is never a rejected hash candidate (always so on P-256 and P-384) and for keys above 1; refuted otherwise: on a curve without a point above zero, such as P-224, the default of Python (C86_p224_zero), a zero candidate makes Java fail and C++ and Python disagree; key 1 is refused by Java only, keys above the order and empty keys are accepted by Python only, Java cannot restore a new key 1, the default hash types differ, EncryptPoint of Python changes the point of the caller, and Python refuses undecodable bytes with AssertionError instead of ValueError."},
 {"property": "C87", "status": "partial", "theorems": ["C87_python_roundtrip", "C87_same_numbers", "C87_same_bytes", "C87_zero_refuted", "C87_java_roundtrip", "C87_from_openssl", "C87_sign_refuted"], "note": "Proved for positive numbers and all byte strings; refuted: zero is written in three different ways (no bytes, one zero byte, an exception), and Python drops the sign of a negative OpenSSL number."},
 {"property": "C88", "status": "partial", "theorems": ["C88_frame", "C88_in_place", "C88_immutable", "C88_results", "C88_success", "C88_errors", "C88_division", "C88_shared", "C88_constants_refuted", "C88_hash_refuted", "C88_negate_refuted", "C88_as_long", "C88_generator", "C88_generator_refuted"], "note": "The value semantics are proved for every history that neither makes a shared object mutable nor shifts it in place (C88_results, C88_success, C88_division, C88_shared), and without that hypothesis for every number the program itself leaves alone (C88_frame, C88_in_place, C88_immutable). Without it the claim about the constants is false (C88_constants_refuted: in-place shifts ignore the immutable flag, Mutable works on constants and cached numbers). The same division holds for the random generator of a curve, which uses One (C88_generator, C88_generator_refuted). Equal hashes for equal numbers are refuted (C88_hash_refuted), and so is the range of ModNegate (C88_negate_refuted). Prime tests, the OpenSSL context, garbage collection and arguments that are not BigNums are not modelled."},
 {"property": "C89", "status": "partial", "theorems": ["C89_stream", "C89_terminates", "C89_range", "C89_deterministic", "C89_unbiased", "C89_inputs", "C89_inputs_refuted", "C89_seed"], "note": "Proved for all histories, except that generators of different counter widths may hash the same strings (C89_inputs_refuted). SHA-512 is an arbitrary function with 64-byte results. Negative counter widths, which Python refuses, are outside the model."},
 {"property": "C90", "status": "partial", "theorems": ["C90_random", "C90_mod_exp", "C90_mod_inverse", "C90_freed", "C90_freed_refuted", "C90_bytes_refuted", "C90_safe_prime", "C90_safe_prime_refuted", "C90_prime_error_refuted"], "note": "Proved for integers. Refuted with witnesses: bytes are taken as zero although the documentation allows them (C90_bytes_refuted), a negative argument leaks OpenSSL numbers (C90_freed_refuted), IsSafePrime raises for 2 (C90_safe_prime_refuted), an error of the prime test counts as prime (C90_prime_error_refuted). str and list arguments of TempBNs are outside the model."},
 {"property": "C91", "status": "partial", "theorems": ["C91_reader", "C91_reader_final", "C91_reader_resumes_refuted", "C91_writer_stops", "C91_writer_complete", "C91_writer_atomic", "C91_writer_continues_refuted"], "note": "Proved for all calls and faults: answers up to the first failure, finality of INTERNAL, completeness of fault-free sessions, the exact outcome when the caller stops at the first failed write, and sessions on a device that writes all or nothing. Refuted: the reader resumes after INVALID_ARGUMENT with records that are not in the file (C91_reader_resumes_refuted), and records accepted after a partial write are lost without an error (C91_writer_continues_refuted)."},
 {"property": "C92", "status": "partial", "theorems": ["C92_reader", "C92_reader_final", "C92_false_end_refuted", "C92_writer_complete", "C92_writer_stops", "C92_writer_continues_refuted"], "note": "Proved for all calls and faults: answers up to the first failure, absence of undefined behaviour, no line after a failed call, completeness of fault-free sessions and the exact content after a failed write. Refuted: a device error can be followed by a report of the end of the file (C92_false_end_refuted), the incomplete line of a failed write is read as a line (C92_writer_stops), and the line accepted after it is glued to it (C92_writer_continues_refuted)."},
 {"property": "C93", "status": "partial", "theorems": ["C93_frame", "C93_results", "C93_undefined", "C93_no_drops", "C93_references", "C93_cipher", "C93_encrypt_point", "C93_roundtrip", "C93_equality", "C93_lifetime_refuted", "C93_scalar_refuted", "C93_encrypt_point_refuted"], "note": "Proved: the group results, the frame, equality, round trips and the independence of a cipher (C93_results, C93_frame, C93_equality, C93_roundtrip, C93_cipher), the effect of any number of calls of EncryptPoint (C93_encrypt_point), an exact characterisation of undefined calls (C93_undefined) by the references that the history left (C93_references) and their absence in programs that let go of no curve or cipher and multiply with no ordinary int (C93_no_drops). Refuted without those conditions: points outlive the group they point to (C93_lifetime_refuted), and priv_key_bn and ints are taken for addresses (C93_scalar_refuted). EncryptPoint changes its argument (C93_encrypt_point_refuted). All curve objects are one curve; mixing curves is not modelled."},
 {"property": "C94", "status": "partial", "theorems": ["C94_names", "C94_exists", "C94_create", "C94_create_faults", "C94_create_again", "C94_delete_dir", "C94_delete_dir_faults", "C94_traversal", "C94_delete_file", "C94_rename", "C94_history", "C94_view_refuted", "C94_cut_refuted", "C94_exists_refuted"], "note": "Proved for names without NUL and, for DeleteFile and RenameFile, views with a NUL right behind them. Refuted beyond that: a view inside a longer string acts on another file (C94_view_refuted), a name with a NUL is cut (C94_cut_refuted), FileExists throws when it cannot read the state (C94_exists_refuted). RecursivelyCreateDir is shown to return AlreadyExists for an existing directory. Links, dot entries and other processes are not modelled."},
 {"property": "C95", "status": "proved", "theorems": ["C95_camenisch_shoup", "C95_camenisch_shoup_game", "C95_paillier_generator", "C95_paillier_units", "C95_paillier_game", "C95_same_randomness_refuted"], "note": "Reduction: that the players' gaps are small is the hardness assumption of the cryptosystems and stays a quantity in the statement. C95_same_randomness_refuted shows that fresh draws are needed."},
 {"property": "C96", "status": "proved", "theorems": ["C96_range", "C96_units", "C96_paillier_generator", "C96_camenisch_shoup_key", "C96_pedersen_parameters", "C96_private_keys", "C96_points", "C96_vrf_keys", "C96_boneh_boyen_keys"], "note": "Draws are independent and uniform below the bound the code passes to the library (BN_rand_range is part of the trusted base); a draw that runs out of tries gives no result and is not counted. The range part follows directly from the model of the library call; the others are about the code built on it."},
 {"property": "C97", "status": "proved", "theorems": ["C97_view", "C97_only_the_values"], "note": "The hash answer is fixed in advance (honest-verifier simulation with a programmed hash function, as in C65 and C71); C79 takes the step to an observer who queries the hash function for single proofs."},
 {"property": "C98", "status": "partial", "theorems": ["C98_atomic", "C98_one_start_safe", "C98_lock_partial", "C98_freed_key_refuted", "C98_round_ones_race_refuted", "C98_main_loop_race_refuted"], "note": "Refuted as stated, since the handler has no lock: any two overlapping start requests can make one use a key that was freed (C98_freed_key_refuted), any two requests of the second round can race for the Context and the key, which must not be shared by threads (C98_round_ones_race_refuted), and in every run that gives a result the write of protocol_finished_ races with the loop of the main thread, even with a single client (C98_main_loop_race_refuted). Proved: no freed key is used under any schedule when there is at most one start request or the key is already there (C98_one_start_safe); with a lock no freed key is used and no two requests race (C98_lock_partial); absent a use of a freed key the machine of C78 is exact (C98_atomic). A race is two unordered next steps that touch the same memory, one of them writing; what the memory model does after a race is not modelled."},
 {"property": "C99", "status": "proved", "theorems": ["C99_view", "C99_only_the_signatures"], "note": "The response is compared for a fixed honest request; what the request itself shows the issuer is in C65, C70 and C71. The public key encrypts the signing key, so a requester who could decrypt it would learn more: the statement is about the response given the public key. The hash answer is fixed in advance as in C65; C79_response takes the step to an observer who queries the hash function. The condition on the two moduli is the one of C65 (without it C65_response_opening_refuted applies)."},
 {"property": "C100", "status": "proved", "theorems": ["C100_private_encryption", "C100_reported", "C100_unbiased"], "note": ""},
 {"property": "C101", "status": "partial", "theorems": ["C101_set_up_once", "C101_exclusion_partial", "C101_no_deadlock_partial", "C101_early_members_refuted", "C101_without_context_refuted"], "note": "The set-up runs once and before any constructor returns: proved for all threads and schedules (C101_set_up_once). Exclusion, legality of unlocking and absence of deadlock are proved if every thread constructs a Context before it uses the library and the members of Context use no lock (C101_exclusion_partial, C101_no_deadlock_partial). Refuted without these: the members of Context are made before OpenSSLInit is called (C101_early_members_refuted), and a thread without a Context is not kept out (C101_without_context_refuted). The critical sections of the library are taken to be unnested."},
 {"property": "C102", "status": "partial", "theorems": ["C102_shards_partial", "C102_cut_unique", "C102_memory_partial", "C102_limit_refuted", "C102_no_limit_refuted"], "note": "Proved when max_bytes plus the length of every record is below 2^31: the shards are exactly the groups of S_ShardSize.cut (C102_shards_partial), which are unique (C102_cut_unique), and the records in memory without the last are at most max_bytes bytes (C102_memory_partial). Without that guard it is false: with max_bytes = 2^31-1 the 32-bit count never exceeds the limit and nothing is written before Close (C102_no_limit_refuted). The header's comment that max_bytes is the maximum size of a shard is false too (C102_limit_refuted)."},
 {"property": "C103", "status": "proved", "theorems": ["C103_close_names", "C103_since_prefix_refuted", "C103_unnamed_shards_refuted"], "note": "Proved for every history. Two readings of the header are refuted: the list does not start at the last SetShardPrefix (C103_since_prefix_refuted), and after a failed Close shards can remain that no call has named, so the caller cannot delete them (C103_unnamed_shards_refuted)."},
 {"property": "C104", "status": "proved", "theorems": ["C104_ok_is_complete", "C104_ok_means_intact", "C104_succeeds", "C104_failure_is_final", "C104_retry_refuted", "C104_any_intact_shards", "C104_ok_iff_intact"], "note": "Proved for histories in which fclose and reading on the device do not fail (a single Merge with those faults is C84). C104_retry_refuted shows that a failed merge cannot be tried again with the same object although the shards are complete by then."},
 {"property": "C105", "status": "partial", "theorems": ["C105_any_intact_file", "C105_damaged_input", "C105_ok_iff", "C105_ok_on_any_device", "C105_cleanup_refuted"], "note": "proved for every input file: OK exactly if intact and the function succeeds throughout, with the output of C11; damaged inputs never return OK and touch only files named like shards (a header cut by the end of the file makes the reader use an uninitialised byte, outcome UB). On any device with any faults an OK still means an intact input and a complete output. The clean-up of shards after such a failure is refuted. The input must not be named like a shard of the output."}
]}
