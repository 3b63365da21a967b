{
 "claims": [
  {
   "property": "C01",
   "status": "proved",
   "theorems": [
    "C01_bloom_no_false_negative",
    "C01_bloom_history_total",
    "C01_bloom_schedule_independent",
    "C01_bloom_zero_capacity_refuted"
   ],
   "note": "Holds for 1 <= raw bits <= 2^32-8; a zero-size table (capacity 0) is undefined behaviour, proved separately."
  },
  {
   "property": "C02",
   "status": "proved",
   "theorems": [
    "C02_bloom_round_trip"
   ],
   "note": "Buffer serialisation."
  },
  {
   "property": "C03",
   "status": "proved",
   "theorems": [
    "C03_bloom_contain_exact",
    "C03_bloom_contain_deterministic",
    "C03_bloom_count_exact",
    "C03_bloom_salts_distinct"
   ],
   "note": ""
  },
  {
   "property": "C04",
   "status": "proved",
   "theorems": [
    "C04_cuckoo_no_false_negative",
    "C04_cuckoo_history_total",
    "C04_cuckoo_huge_capacity_refuted"
   ],
   "note": "For capacities up to 2^33+3; above, the constructor computes an empty table (refuted boundary case)."
  },
  {
   "property": "C05",
   "status": "partial",
   "theorems": [
    "C05_cuckoo_delete_other_partial",
    "C05_cuckoo_delete_loses_other_refuted",
    "C05_cuckoo_delete_result"
   ],
   "note": "The full statement is false of the code: deletion clears both buckets. Proved for non-colliding elements and refuted for every colliding pair."
  },
  {
   "property": "C06",
   "status": "proved",
   "theorems": [
    "C06_cuckoo_alternate_involution"
   ],
   "note": ""
  },
  {
   "property": "C07",
   "status": "partial",
   "theorems": [
    "C07_cuckoo_buffer_round_trip_partial",
    "C07_cuckoo_one_bucket_overflow_refuted",
    "C07_cuckoo_file_round_trip_refuted",
    "C07_cuckoo_buffer_loses_victim_refuted"
   ],
   "note": "False of the code: victim.used is written at the wrong offset, and the file variant reads the table as a C string. All other fields round-trip."
  },
  {
   "property": "C08",
   "status": "partial",
   "theorems": [
    "C08_cuckoo_point_lookup_refuted",
    "C08_cuckoo_point_lookup_partial"
   ],
   "note": "False of the code: 32 uninitialised bytes are hashed. Holds when those bytes agree."
  },
  {
   "property": "C09",
   "status": "proved",
   "theorems": [
    "C09_upperpower2_least",
    "C09_upperpower2_overflow",
    "C09_IsPowerOfTwo_exact",
    "C09_hasvalue16_exact"
   ],
   "note": ""
  },
  {
   "property": "C10",
   "status": "proved",
   "theorems": [
    "C10_transpose_exact",
    "C10_transpose_involution",
    "C10_transpose_small_refuted"
   ],
   "note": "Exact transposition for every supported shape, any prior content of output and staging buffers; shapes below 16 rows (or an odd 8-row strip with fewer than 16 columns) leave the matrix and are refuted."
  },
  {
   "property": "C11",
   "status": "proved",
   "theorems": [
    "C11_block_order_total",
    "C11_block_order_meaning",
    "C11_set_difference_exact"
   ],
   "note": "Strict total order, its meaning (signed bytes from the top), exact set difference."
  },
  {
   "property": "C12",
   "status": "partial",
   "theorems": [
    "C12_set_bit_exact",
    "C12_clear_bit_refuted",
    "C12_sparse_bytes_exact",
    "C12_block_serialization_round_trip",
    "C12_blocks_xor_involution",
    "C12_compare_exact"
   ],
   "note": "SetBit, FromSparseBytes, serialization, XOR and Compare proved; ClearBit refuted for every block other than the single-bit block."
  },
  {
   "property": "C13",
   "status": "proved",
   "theorems": [
    "C13_aes_round_trip",
    "C13_aes_ecb_round_trip",
    "C13_aes_cbc_round_trip",
    "C13_aes_cbc_empty_refuted",
    "C13_fast_ecb_agrees",
    "C13_sbox_is_fips197",
    "C13_aes_is_fips197"
   ],
   "note": "All keys, blocks and lengths; also equality with an independent FIPS-197 specification. CBC on the empty vector is undefined (refuted part)."
  },
  {
   "property": "C14",
   "status": "partial",
   "theorems": [
    "C14_prg_stream",
    "C14_prg_split",
    "C14_prg_no_repeat",
    "C14_prg_bytes_prefix",
    "C14_prg_bytes_split_refuted",
    "C14_prg_bytes_split_partial"
   ],
   "note": "Block streams fully proved; byte streams split only at multiples of 16 (refuted otherwise)."
  },
  {
   "property": "C15",
   "status": "proved",
   "theorems": [
    "C15_otp_round_trip"
   ],
   "note": "All keys and lengths."
  },
  {
   "property": "C16",
   "status": "proved",
   "theorems": [
    "C16_round_trip",
    "C16_truncated_file_fails",
    "C16_vector_length_not_recorded"
   ],
   "note": "Any sequence of objects in one stream; truncated files fail; the pre-sizing hypothesis is shown necessary."
  },
  {
   "property": "C17",
   "status": "partial",
   "theorems": [
    "C17_stream_round_trip_partial",
    "C17_bytes_round_trip_partial",
    "C17_sign_lost_refuted",
    "C17_too_large_refuted"
   ],
   "note": "Round-trips proved for 0 <= a < 2^256 (streams) and every a >= 0 (byte strings). False of the code for negative numbers (sign lost) and larger ones (uninitialised buffer written): refuted for all of them."
  },
  {
   "property": "C18",
   "status": "proved",
   "theorems": [
    "C18_product_evaluates",
    "C18_eval_is_evaluation",
    "C18_product_coefficients",
    "C18_product_total",
    "C18_vector_product_evaluates"
   ],
   "note": "All polynomials, points and moduli; only the product of two empty polynomials throws."
  },
  {
   "property": "C19",
   "status": "partial",
   "theorems": [
    "C19_cbcaes_depends_on_memory_refuted",
    "C19_cbcaes_input_only_partial"
   ],
   "note": "The property is false of the code: refuted for every input whose length is not a multiple of 16, proved for the others."
  },
  {
   "property": "C20",
   "status": "partial",
   "theorems": [
    "C20_mod_canonical",
    "C20_mod_inverse",
    "C20_mod_negate_partial",
    "C20_mod_negate_multiple_refuted",
    "C20_vectors_pointwise",
    "C20_scalar_vectors_pointwise",
    "C20_power_vector",
    "C20_nth_bit"
   ],
   "note": "Everything except ModNegate on nonzero multiples of m, which returns m instead of 0 (refuted for all of them)."
  },
  {
   "property": "C21",
   "status": "partial",
   "theorems": [
    "C21_dec_correct_partial",
    "C21_dec_correct_covered",
    "C21_dec_point_correct",
    "C21_odd_length_refuted",
    "C21_zero_key_refuted"
   ],
   "note": "True for even MSG_LEN, under the assumption that the 64-bit point keys do not collide on the compared points. False for odd MSG_LEN: the table and giant steps cover only 2^(MSG_LEN-1) exponents and decryption exits on the upper half."
  },
  {
   "property": "C22",
   "status": "proved",
   "theorems": [
    "C22_homomorphic",
    "C22_homomorphic_all_ciphertexts",
    "C22_homomorphic_dec",
    "C22_rerand",
    "C22_reenc"
   ],
   "note": "Identities on ciphertexts hold for all integers; decryption of results for every result the table covers."
  },
  {
   "property": "C23",
   "status": "partial",
   "theorems": [
    "C23_multi_recipient_partial",
    "C23_multi_recipient_point",
    "C24_multi_recipient"
   ],
   "note": "Any number of recipients; decryption to the integer for even MSG_LEN (odd lengths fail as in C21); the group element h^m is recovered without restriction."
  },
  {
   "property": "C24",
   "status": "partial",
   "theorems": [
    "C24_dec_correct_partial",
    "C24_dec_correct_covered",
    "C24_operations",
    "C24_multi_recipient",
    "C24_odd_length_refuted"
   ],
   "note": "Decryption for even MSG_LEN; false for odd MSG_LEN (upper half exits). All homomorphic operations, ReRand and ReEnc are unconditional identities."
  },
  {
   "property": "C25",
   "status": "proved",
   "theorems": [
    "C25_dec_enc",
    "C25_rerand_any",
    "C25_bytes_roundtrip",
    "C25_x25519_dec_enc",
    "C25_x25519_keygen_dec_enc"
   ],
   "note": "X25519 scalar multiplication is external; only its commutativity and output length are assumed."
  },
  {
   "property": "C26",
   "status": "partial",
   "theorems": [
    "C26_keys_constant_refuted",
    "C26_public_decryption_refuted",
    "C26_two_time_pad_refuted"
   ],
   "note": "False: Setup, KeyGen and Enc re-seed the PRG with the constant fixed_seed, so all users share one secret key, equal to the randomness of every ciphertext; anyone can decrypt."
  },
  {
   "property": "C27",
   "status": "partial",
   "theorems": [
    "C27_search_sound_complete",
    "C27_search_complete_partial",
    "C27_search_terminates",
    "C27_build_order_irrelevant",
    "C27_load_succeeds",
    "C27_truncated_table_rejected",
    "C27_odd_range_refuted"
   ],
   "note": "Sound and complete over the covered range for every interleaving, assuming the 64-bit keys do not collide on the compared points; the covered range is the whole range only for even RANGE_LEN."
  },
  {
   "property": "C28",
   "status": "partial",
   "theorems": [
    "C28_reload_same_base_partial",
    "C28_stale_entries_refuted"
   ],
   "note": "False: LoadTable does not clear the map; entries of a previously loaded base still answer and yield wrong logarithms."
  },
  {
   "property": "C29",
   "status": "proved",
   "theorems": [
    "C29_signatures_verify",
    "C29_answer_unique",
    "C29_special_soundness"
   ],
   "note": "Completeness, unique answer, extraction of the key by an explicit extractor from two accepting signatures with one first message and different challenges."
  },
  {
   "property": "C30",
   "status": "proved",
   "theorems": [
    "C30_homomorphic",
    "C30_perfectly_hiding",
    "C30_binding",
    "C30_length_not_bound"
   ],
   "note": "Homomorphic, perfectly hiding (unique randomness), binding up to an explicit non-trivial relation. The length of the vector is not bound: trailing zeros can be added."
  },
  {
   "property": "C31",
   "status": "proved",
   "theorems": [
    "C31_complete",
    "C31_special_soundness"
   ],
   "note": "Explicit extractor."
  },
  {
   "property": "C32",
   "status": "proved",
   "theorems": [
    "C32_complete",
    "C32_special_soundness",
    "C32_unequal_logs_one_challenge"
   ],
   "note": "Explicit extractor; for unequal logarithms at most one challenge can be answered."
  },
  {
   "property": "C33",
   "status": "proved",
   "theorems": [
    "C33_complete",
    "C33_special_soundness"
   ],
   "note": "Explicit extractor."
  },
  {
   "property": "C34",
   "status": "proved",
   "theorems": [
    "C34_complete",
    "C34_special_soundness",
    "C34_same_plaintext"
   ],
   "note": "Any number of recipients; the extracted message is what every recipient decrypts."
  },
  {
   "property": "C35",
   "status": "partial",
   "theorems": [
    "C35_encoding_refuted",
    "C35_encoding_binds_A_partial"
   ],
   "note": "False: only the first messages vec_A enter the encoding; B, z and t are encoded and dropped."
  },
  {
   "property": "C36",
   "status": "partial",
   "theorems": [
    "C36_complete",
    "C36_wrong_witness_rejected",
    "C36_single_ciphertext_refuted"
   ],
   "note": "Completeness for every n >= 2, m >= 1, N = n^m, index and randomness; m is passed exactly (the code computes log(N)/log(n) in floating point). For N = 1 (m = 0) Verify writes outside an empty vector: refuted."
  },
  {
   "property": "C37",
   "status": "partial",
   "theorems": [
    "C37_soundness_refuted"
   ],
   "note": "False of the code: vec_G is not hashed, so an accepted proof can be made for any list of ciphertexts. Soundness for a challenge drawn after the whole first message is C100."
  },
  {
   "property": "C38",
   "status": "partial",
   "theorems": [
    "C38_complete",
    "C38_nonmember_rejected",
    "C38_open_names_signer",
    "C38_justify_accepts",
    "C38_justify_sound",
    "C38_single_member_refuted"
   ],
   "note": "For every ring of 2^m keys with m >= 1. A ring of one key (m = 0) makes Verify write outside an empty vector: refuted."
  },
  {
   "property": "C39",
   "status": "partial",
   "theorems": [
    "C39_framing_refuted"
   ],
   "note": "False of the code: ct_s is not hashed, so anyone can sign in the name of any ring member and Open names that member. Soundness for a challenge drawn after the whole first message is C101."
  },
  {
   "property": "C40",
   "status": "proved",
   "theorems": [
    "C40_complete",
    "C40_wrong_witness_rejected",
    "C40_verifiers_agree",
    "C40_wrong_length_not_accepted"
   ],
   "note": "All power-of-two lengths, groups, vectors and hash functions; both verifiers."
  },
  {
   "property": "C41",
   "status": "proved",
   "theorems": [
    "C41_complete",
    "C41_acceptance_exact",
    "C41_out_of_range_rejected",
    "C41_not_power_of_two"
   ],
   "note": "Completeness under invertible Fiat-Shamir challenges (the code inverts y and the inner-product challenges)."
  },
  {
   "property": "C42",
   "status": "proved",
   "theorems": [
    "C42_verify_implies_fast",
    "C42_two_combiners_imply_verify",
    "C42_rejected_at_most_one_combiner"
   ],
   "note": "All proofs, including adversarial ones."
  },
  {
   "property": "C43",
   "status": "partial",
   "theorems": [
    "C43_binding_refuted"
   ],
   "note": "False of the code: the commitments are not hashed into the transcript, so a commitment to any out-of-range value can be fitted to a finished proof."
  },
  {
   "property": "C44",
   "status": "proved",
   "theorems": [
    "C44_known_randomness_complete",
    "C44_known_randomness_out_of_range",
    "C44_known_key_complete",
    "C44_known_key_out_of_range",
    "C44_illegal_range",
    "C44_refresh_bound"
   ],
   "note": "Both gadgets, all bounds, values, keys and randomness; challenges that the code inverts must be invertible."
  },
  {
   "property": "C45",
   "status": "proved",
   "theorems": [
    "C45_one_to_one",
    "C45_overspending_rejected",
    "C45_one_to_many"
   ],
   "note": "for challenges that are invertible, as in C41"
  },
  {
   "property": "C46",
   "status": "proved",
   "theorems": [
    "C46_conservation",
    "C46_accepted_moves",
    "C46_reveal",
    "C46_new_account"
   ],
   "note": "one-to-one histories; transfer ciphertexts well formed, which the equality proof shows (C34)"
  },
  {
   "property": "C47",
   "status": "partial",
   "theorems": [
    "C47_replay_refuted"
   ],
   "note": "false of the code: every accepted transaction is accepted again while the sender has the amount"
  },
  {
   "property": "C48",
   "status": "partial",
   "theorems": [
    "C48_fetch_refuted",
    "C48_presized_partial"
   ],
   "note": "false of the code: FetchCTx into a new object reads no vectors and sender_balance_ct is not stored"
  },
  {
   "property": "C49",
   "status": "proved",
   "theorems": [
    "C49_supervisor",
    "C49_supervisor_many"
   ],
   "note": "amounts below the covered range of the decryption table"
  },
  {
   "property": "C50",
   "status": "proved",
   "theorems": [
    "C50_open_complete",
    "C50_open_sound",
    "C50_rate_complete",
    "C50_rate_sound",
    "C50_limit_complete"
   ],
   "note": ""
  },
  {
   "property": "C51",
   "status": "partial",
   "theorems": [
    "C51_wellformed_partial",
    "C51_dropped_receivers_refuted",
    "C51_mint_refuted"
   ],
   "note": "false of the code: nothing proves the X part of the sender ciphertext, so a sender can credit receivers without being debited; Miner also accepts a short receiver list"
  },
  {
   "property": "C52",
   "status": "partial",
   "theorems": [
    "C52_received_is_sent",
    "C52_finishes",
    "C52_short_stream_hangs",
    "C52_large_number_refuted",
    "C52_sign_refuted",
    "C52_uneven_items_refuted"
   ],
   "note": "Delivery in order under every fragmentation and interleaving of reads and writes, and termination under every fair schedule, for every message the format can hold. Refuted outside that: a BigInt that needs more than LEN bytes arrives as 0, a negative one as its absolute value, items of a byte vector are cut to the first item's length, and a receiver whose peer closes early loops for ever."
  },
  {
   "property": "C53",
   "status": "proved",
   "theorems": [
    "C53_naor_pinkas",
    "C53_other_byte"
   ],
   "note": "All groups, lengths, messages, bits, exponents and schedules. C53_other_byte characterises the result for a selection byte that is neither 0 nor 1."
  },
  {
   "property": "C54",
   "status": "proved",
   "theorems": [
    "C54_iknp_random",
    "C54_iknp_standard",
    "C54_iknp_onesided",
    "C54_empty_base_refuted"
   ],
   "note": "Every extension length the check admits, every positive base length, all randomness and schedules. The check also admits base length 0: C54_empty_base_refuted shows that the run then crashes."
  },
  {
   "property": "C55",
   "status": "partial",
   "theorems": [
    "C55_alsz_random",
    "C55_alsz_standard",
    "C55_alsz_onesided",
    "C55_alsz_bytes",
    "C55_alsz_bytes_onesided",
    "C55_empty_bytes_refuted",
    "C55_other_byte_refuted"
   ],
   "note": "Block messages for every admitted length; byte vectors for every positive admitted length. False for byte vectors of extension length 0 (C55_empty_bytes_refuted) and for selection bytes other than 0 and 1 (C55_other_byte_refuted)."
  },
  {
   "property": "C56",
   "status": "partial",
   "theorems": [
    "C56_client_equals_evaluate",
    "C56_identity_map",
    "C56_zero_mask_refuted"
   ],
   "note": "Proved for every permutation, input vector, key and mask in 1..order-1, for every schedule. Refuted at the edge: the code may draw the mask 0, and then the outputs depend only on uninitialised memory."
  },
  {
   "property": "C57",
   "status": "partial",
   "theorems": [
    "C57_first_call_partial",
    "C57_setup_proper",
    "C57_later_call_refuted",
    "C57_odd_size_refuted"
   ],
   "note": "The first Evaluate after a run agrees with the client's output for all sets, seeds and randomness. Later calls do not: Evaluate advances the common seed (refuted by a concrete run); set sizes that are no multiple of the batch size leave the arrays."
  },
  {
   "property": "C58",
   "status": "partial",
   "theorems": [
    "C58_vole_oprf_partial",
    "C58_count_refuted"
   ],
   "note": "Proved for every group, hash, OKVS of usable sizes, system randomness and encodable client set (one bin with exactly the configured number of items, or several bins with room), one thread: Evaluate equals the client's function on every list whose items per bin are countable by the index type, over any number of calls. One thread is what Setup sets in every object it returns. Lists that overflow the index type are refuted (Evaluate returns zeros)."
  },
  {
   "property": "C59",
   "status": "partial",
   "theorems": [
    "C59_ec_bloom",
    "C59_ec_set",
    "C59_x25519_bloom",
    "C59_x25519_set",
    "C59_zero_key_refuted"
   ],
   "note": "Proved for both curves, with and without the Bloom filter, every schedule of parties and threads, for nonzero keys. Refuted for the key 0, which the prime256v1 code may draw: all bits are then 1."
  },
  {
   "property": "C60",
   "status": "partial",
   "theorems": [
    "C60_psi",
    "C60_psi_card",
    "C60_psu",
    "C60_psu_bytes",
    "C60_sets",
    "C60_psi_end_to_end",
    "C60_psu_end_to_end",
    "C60_card_end_to_end",
    "C60_small_sets_refuted"
   ],
   "note": "Proved for all sets whose size the OT extension admits, for correct bits exactly and with the mqRPMT of the default build up to tag collisions and Bloom false positives. Refuted for the block versions of PSI and PSU when the sender's size is not a multiple of 128."
  },
  {
   "property": "C61",
   "status": "partial",
   "theorems": [
    "C61_equal_sizes_partial",
    "C61_more_sender_items_refuted",
    "C61_more_receiver_items_refuted"
   ],
   "note": "Proved for sets of equal size. Refuted for other sizes: with more sender items the sum is wrong by the values and masks of the last items, with more receiver items the receiver reads past the results."
  },
  {
   "property": "C62",
   "status": "partial",
   "theorems": [
    "C62_end_to_end",
    "C62_private_id",
    "C62_vole_oprf"
   ],
   "note": "C62_end_to_end: Private-ID with the VOLE-OPRF and the mqRPMT the headers select, all inputs, randomness and schedules: one function gives both parties' identifiers, the union has no others and has all of the receiver's; an identifier of the sender is missing only if a 128-bit hash or tag collides or the Bloom filter answers falsely. That exception is why the status is partial. C62_private_id and C62_vole_oprf: the same relative to any correct OPRF / any correct indication bits."
  },
  {
   "property": "C63",
   "status": "partial",
   "theorems": [
    "C63_receive",
    "C63_intersection",
    "C63_long_truncation_refuted"
   ],
   "note": "Proved for every truncation length up to 32 bytes; for larger statistical parameters the code reads behind the points (refuted)."
  },
  {
   "property": "C64",
   "status": "partial",
   "theorems": [
    "C64_grid",
    "C64_equality",
    "C64_zero_key_refuted"
   ],
   "note": "Proved for every grid shape, permutations and nonzero keys, with the exact collision condition, and under injectivity of the hash the stated equivalence. Refuted for the key 0, which the code may draw."
  },
  {
   "property": "C65",
   "status": "proved",
   "theorems": [
    "C65_division",
    "C65_portable_division",
    "C65_wide_division",
    "C65_mod32",
    "C65_zero_refused",
    "C65_logs"
   ],
   "note": "Scalar and vector code, x86-64 and portable branches."
  },
  {
   "property": "C66",
   "status": "partial",
   "theorems": [
    "C66_scalar_partial",
    "C66_vector",
    "C66_agree_partial",
    "C66_int_overflow_refuted"
   ],
   "note": "Every index width, sparse size and weight the class accepts: positions are pairwise distinct and in range, and the 32-lane code computes the same rows as the scalar code. Missing because false: the scalar weight-3 path with 16-bit indices multiplies two uint16_t as int, which overflows for sparse_size > 2^15 (C66_int_overflow_refuted)."
  },
  {
   "property": "C67",
   "status": "partial",
   "theorems": [
    "C67_plain",
    "C67_random_partial",
    "C67_random_others_partial",
    "C67_batch",
    "C67_total",
    "C67_random_refuted"
   ],
   "note": "Without a random generator every successful encode decodes to the values, scalar and batched, for every hash, key list and value list (both dense kinds, all sizes; fewer than 256 gap rows for gf_128). With a generator this is proved when the triangulation leaves no gap row and for all keys that are not gap rows; for gap rows the statement is false (C67_random_refuted, real AES hash, both kinds)."
  },
  {
   "property": "C68",
   "status": "partial",
   "theorems": [
    "C68_no_gaps_partial",
    "C68_refuted"
   ],
   "note": "A second encode is proved correct for all inputs when there is no gap row; with gap rows the property is false for both dense kinds (C68_refuted)."
  },
  {
   "property": "C69",
   "status": "partial",
   "theorems": [
    "C69_binary",
    "C69_gf128_partial",
    "C69_gf128_refuted"
   ],
   "note": "Binary: exact, any size. GF(2^128): what is returned is the inverse and a refusal means a singular leading block; the full claim is false because the pivot search accepts only the entry 1 (C69_gf128_refuted: every [[0;a];[b;0]] with b not in {0,1} is refused)."
  },
  {
   "property": "C70",
   "status": "proved",
   "theorems": [
    "C70_carryless_product",
    "C70_field_product",
    "C70_field",
    "C70_inverse_of_zero",
    "C70_array"
   ],
   "note": "Both copies of gf128_mul (OKVS and base VOLE) are the same statements."
  },
  {
   "property": "C71",
   "status": "partial",
   "theorems": [
    "C71_successor",
    "C71_enumeration",
    "C71_many_columns_refuted"
   ],
   "note": "Complete for n <= 256 (any k <= n). Entries are bytes: for n > 256 the enumeration wraps and never ends (C71_many_columns_refuted)."
  },
  {
   "property": "C72",
   "status": "partial",
   "theorems": [
    "C72_partial",
    "C72_decode_returns",
    "C72_deterministic",
    "C72_total",
    "C72_single_bin",
    "C72_single_bin_refuted",
    "C72_short_thread_refuted",
    "C72_many_bins_refuted",
    "C72_overfull_refuted",
    "C72_dirty_output_refuted"
   ],
   "note": "For every hash, key set, value list, number of encoding and decoding threads and every schedule, decode returns the stored values and stays inside the buffers, if every thread has at least 32 keys, the keys fit the table and bins, and each bin is one for which C67 holds (no randomisation, or no gap row). The encoded vector is independent of threads and schedule. The unrestricted statement is refuted: threads with fewer than 32 keys read out of bounds, 256 or more bins loop forever, an overfull bin aborts, one bin with fewer keys than announced reads out of bounds, and a non-zero output buffer gives wrong values."
  },
  {
   "property": "C73",
   "status": "proved",
   "theorems": [
    "C73_base_vole",
    "C73_base_vole_many"
   ],
   "note": "Proved for every number of correlations, every randomness and hash; the OT is the ALSZ model."
  },
  {
   "property": "C74",
   "status": "proved",
   "theorems": [
    "C74_punctured",
    "C74_leaves",
    "C74_depth_zero"
   ],
   "note": "Every depth, index, root key and correction; loop counters are unbounded in the model (in the code they are int: below 31 levels)."
  },
  {
   "property": "C75",
   "status": "partial",
   "theorems": [
    "C75_linear",
    "C75_pair_partial",
    "C75_pair_short_refuted",
    "C75_long_refuted"
   ],
   "note": "Linear and defined for every size whose 32-bit products do not wrap; the two-vector encoder agrees from accumulatorSize elements on.  Refuted below (the two-vector encoder leaves the vector) and from 2^32/24 elements on (random-bit count wraps).  Not covered: that the random indices are read inside the buffer of random bytes drawn for them (GenRandomMod reads zeros past its end)."
  },
  {
   "property": "C76",
   "status": "partial",
   "theorems": [
    "C76_vole_partial",
    "C76_default_no_spare",
    "C76_multiples_of_64",
    "C76_spare_refuted"
   ],
   "note": "Proved for every length below 2^32/48 and every t <= n when the memory read behind three vectors is readable (never read when the last tree has the depth of the others, e.g. multiples of 64).  Refuted otherwise: the OT is called with a length rounded up to 128, beyond the vectors (C76_spare_refuted).  t > n (depth-0 trees) is excluded."
  },
  {
   "property": "C77",
   "status": "partial",
   "theorems": [
    "C77_block_to_bytes_injective",
    "C77_dedicated_hash_invertible_refuted"
   ],
   "note": "Injective; but invertible by anyone."
  },
  {
   "property": "C78",
   "status": "partial",
   "theorems": [
    "C78_fast_hash_preimage_refuted",
    "C78_fast_hash_collision_refuted"
   ],
   "note": "Refuted for every vector: preimages and collisions are computable."
  },
  {
   "property": "C79",
   "status": "proved",
   "theorems": [
    "C79_dlk_zero_knowledge",
    "C79_dle_zero_knowledge",
    "C79_pk_zero_knowledge",
    "C79_pte_zero_knowledge"
   ],
   "note": "Perfect honest-verifier zero knowledge for every fixed challenge."
  },
  {
   "property": "C80",
   "status": "proved",
   "theorems": [
    "C80_schnorr_challenge_binds",
    "C80_dlk_challenge_binds",
    "C80_dle_challenge_binds",
    "C80_pk_challenge_binds",
    "C80_pte_challenge_binds"
   ],
   "note": "For plaintext knowledge and equality the bases g,h are public parameters outside the transcript."
  },
  {
   "property": "C81",
   "status": "partial",
   "theorems": [
    "C81_dlk_dle_encoding_injective",
    "C81_pk_encoding_refuted"
   ],
   "note": "True for discrete-log knowledge and equality; false for plaintext knowledge, which concatenates two numbers of variable length."
  },
  {
   "property": "C82",
   "status": "partial",
   "theorems": [
    "C82_invented_balance_refuted"
   ],
   "note": "false of the code: sender_balance_ct is not compared with the account, so a transaction for an invented balance verifies and the miner exits in Dec"
  },
  {
   "property": "C83",
   "status": "proved",
   "theorems": [
    "C83_account_round_trip",
    "C83_infinity_lost"
   ],
   "note": ""
  },
  {
   "property": "C84",
   "status": "partial",
   "theorems": [
    "C84_first_valid_attempt",
    "C84_one_value",
    "C84_same_attempt_injective_partial",
    "C84_first_attempt_invertible_refuted",
    "C84_shifted_pair"
   ],
   "note": "Totality up to the first accepted attempt and injectivity per attempt proved. Refuted: the candidate coordinate is publicly invertible, so a point reveals the block."
  },
  {
   "property": "C85",
   "status": "partial",
   "theorems": [
    "C85_server_items_exposed_refuted",
    "C85_client_items_exposed_refuted",
    "C85_psi_sender_items_exposed_refuted",
    "C85_membership_test"
   ],
   "note": "Refuted: both keys are constants derived from the fixed seed, so the messages are public functions of the items."
  },
  {
   "property": "C86",
   "status": "partial",
   "theorems": [
    "C86_client_knows_key_refuted"
   ],
   "note": "Refuted for all inputs and randomness: the client encodes zero values without randomness, so P = 0 and the server's key is the VOLE vector C the client holds. Private-ID uses this OPRF."
  },
  {
   "property": "C87",
   "status": "partial",
   "theorems": [
    "C87_key_constant_refuted",
    "C87_values_public_refuted"
   ],
   "note": "Refuted for all inputs: selection bits and masks come from the fixed seed, so the key is a public function of the client's set and the client's values are one public function."
  },
  {
   "property": "C88",
   "status": "partial",
   "theorems": [
    "C88_mqrpmt_partial",
    "C88_returns",
    "C88_no_points",
    "C88_bins",
    "C88_small_set_refuted"
   ],
   "note": "Members always get 1, and every bit is characterised exactly (the decoded value decrypts to the server's point or not); that a non-member does not is only shown when no point is decoded (the rest is probability). Fails for LOG_SERVER_LEN < 7 (undefined shift) and for fewer than 32 items per thread (reads behind the items), e.g. 2^7 items with the 8 default threads."
  },
  {
   "property": "C89",
   "status": "partial",
   "theorems": [
    "C89_client_recognises_members_refuted"
   ],
   "note": "Refuted: every member of the server's set decodes to two encoded curve points and 14 zero bytes, which everybody can test, also for items that are not the client's (offline dictionary attack)."
  },
  {
   "property": "C90",
   "status": "proved",
   "theorems": [
    "C90_inner_product_special_soundness"
   ],
   "note": "Extractor in ExtractSpec.v; C90_hypotheses gives an accepted tree and runs the extractor."
  },
  {
   "property": "C91",
   "status": "proved",
   "theorems": [
    "C91_range_proof_special_soundness",
    "C91_opening_in_range"
   ],
   "note": "For a fixed statement, i.e. for the interactive protocol: with the code's Fiat-Shamir transform the commitments may still be chosen after the challenges (finding C43). Extractor in BPExtractSpec.v; it handles that y is drawn before S and that e does not bind taux, mu, tx."
  },
  {
   "property": "C92",
   "status": "proved",
   "theorems": [
    "C92_one_to_one_sound"
   ],
   "note": "Special soundness for a fixed statement (content of the transaction), as in C91; C92_hypotheses builds the forks and a tree of 192 accepted transactions."
  },
  {
   "property": "C93",
   "status": "proved",
   "theorems": [
    "C93_one_to_many_sound"
   ],
   "note": "Special soundness for a fixed statement, as in C91. The code does not check the first component of the sender's ciphertext, which is why the last equation is conditional (finding C51_mint_refuted). C93_hypotheses builds the forks and a tree of 192 accepted transactions."
  },
  {
   "property": "C94",
   "status": "proved",
   "theorems": [
    "C94_one_to_one",
    "C94_one_to_many"
   ],
   "note": "The encoding of the serial number is a parameter assumed injective and free of the separator bytes (encodings_ok, met by hexu_ok). C94_run: changing the serial number changes the hashed string and the transaction is rejected."
  },
  {
   "property": "C95",
   "status": "proved",
   "theorems": [
    "C95_miner_one_to_one",
    "C95_miner_one_to_many",
    "C95_audits"
   ],
   "note": ""
  },
  {
   "property": "C96",
   "status": "proved",
   "theorems": [
    "C96_known_randomness_sound",
    "C96_known_key_sound",
    "C96_audit_limit_sound"
   ],
   "note": "Special soundness for a fixed statement, as in C91. C96_hypotheses builds forks and a tree of 192 accepted proofs for both gadgets and the audit."
  },
  {
   "property": "C97",
   "status": "proved",
   "theorems": [
    "C97_range_proof_hides_the_values"
   ],
   "note": "Perfect witness indistinguishability of the aggregated range proof, for every hash function. Draws whose challenge x is 0 modulo the order are excluded on both sides."
  },
  {
   "property": "C98",
   "status": "proved",
   "theorems": [
    "C98_receiver_private",
    "C98_sender_keys"
   ],
   "note": "Receiver privacy is perfect and holds against any sender; the sender side is the algebraic core of the reduction to computational Diffie-Hellman, with the hash as an arbitrary function."
  },
  {
   "property": "C99",
   "status": "proved",
   "theorems": [
    "C99_single_input_blinded"
   ],
   "note": "One input per call. With several inputs the client uses one mask for all of them, so hiding is only computational (decisional Diffie-Hellman), which is outside of the model."
  },
  {
   "property": "C100",
   "status": "proved",
   "theorems": [
    "C100_member_extracted",
    "C100_honest_answers"
   ],
   "note": "Extractor er_extract (Ring/RingExtractSpec.v) computes on numbers only; 1 <= n <= order of the group."
  },
  {
   "property": "C101",
   "status": "proved",
   "theorems": [
    "C101_signer_extracted"
   ],
   "note": "Uses the extractor of C100 and interpolation of zs; opening key's public part other than infinity."
  },
  {
   "property": "C102",
   "status": "partial",
   "theorems": [
    "C102_anonymity_refuted",
    "C102_witness_revealed",
    "C102_few_candidates"
   ],
   "note": "False of the code: the answer z is not reduced modulo the order, so the randomness of the encrypted key is z / x^m rounded up plus at most (order-1)/(x-1); a public algorithm names the signer of every signature."
  },
  {
   "property": "C103",
   "status": "partial",
   "theorems": [
    "C103_second_run_refuted"
   ],
   "note": "False as stated, and the exact effect is proved: the vector is passed by reference and Send writes the masked values (v_i + r_i) mod 2^LOG_SUM_BOUND into it; the second run returns the sum plus the first run's masks of the common items. C61_equal_sizes_partial now also states the exact vector left behind."
  },
  {
   "property": "C104",
   "status": "partial",
   "theorems": [
    "C104_mqrpmt",
    "C104_cwprf_psi",
    "C104_base_ot",
    "C104_iknp",
    "C104_alsz",
    "C104_ote_oprf",
    "C104_adcp",
    "C104_pso_partial",
    "C104_pso_refuted",
    "C104_card_sum_partial",
    "C104_card_sum_refuted",
    "C104_private_id_partial",
    "C104_private_id_refuted",
    "C104_ddh_oprf_refuted",
    "C104_ddh_oprf_never"
   ],
   "note": "Proved for mqRPMT (both), cwPRF-PSI, base OT, IKNP, ALSZ, OTE-OPRF and ADCP. False for PSI, PSI-card, PSI-card-sum, PSU and Private-ID exactly when the low byte of the statistical security parameter is the code of a digit (48 to 57), because ALSZOTE's operators do not see Serialization's and write the number of base OTs as decimal text. False for DDH-OPRF always: '32' and '32' become 3232."
  },
  {
   "property": "C105",
   "status": "partial",
   "theorems": [
    "C105_seed_partial",
    "C105_seed_refuted"
   ],
   "note": "Proved when the first byte of the key is not the code of a digit; false otherwise (PRG's operators write the counter as decimal text directly before the key)."
  },
  {
   "property": "C106",
   "status": "partial",
   "theorems": [
    "C106_file_determines_partial",
    "C106_file_refuted",
    "C106_supervisor_key"
   ],
   "note": "False as stated: sender_balance_ct and balance_proof are not written, so every accepted transaction shares its file with a rejected one (C106_file_refuted). Everything else is determined by the file, given the numbers of receivers and proof elements."
  },
  {
   "property": "C107",
   "status": "partial",
   "theorems": [
    "C107_no_gaps_partial",
    "C107_read_gaps_refuted",
    "C107_write_gaps_refuted",
    "C107_gaps_refuted"
   ],
   "note": "False in general: with gap rows WriteObject reads gap_cols out of range (GF(2^128)) and ReadObject writes gap_rows_first_row out of range (both kinds). Proved when no gap row is left."
  },
  {
   "property": "C108",
   "status": "partial",
   "theorems": [
    "C108_one_word_partial",
    "C108_preimage_refuted",
    "C108_points_refuted",
    "C108_search_refuted",
    "C108_decryption_refuted"
   ],
   "note": "The statement is false: one word of the input makes the hash any value, two points of the default curve share a key, and a shared key makes the search report a wrong logarithm. Proved: strings that differ in one aligned word of 8 bytes have different hashes. C108_hypotheses shows that the hypotheses are met."
  },
  {
   "property": "C109",
   "status": "partial",
   "theorems": [
    "C109_parameters",
    "C109_two_digits_partial",
    "C109_high_bytes_refuted",
    "C109_low_bytes_refuted",
    "C109_history_partial",
    "C109_other_base_refuted"
   ],
   "note": "The statement is false: names of different bases collide although the digests differ, and the second process then reports wrong logarithms. Proved: parameters never collide, bases with eight two-digit bytes collide only if these agree, and every history without a collision searches the right base. C109_hypotheses shows that the hypotheses are met."
  },
  {
   "property": "C110",
   "status": "partial",
   "theorems": [
    "C110_on_curve",
    "C110_function",
    "C110_even_refuted"
   ],
   "note": "Proved: no exit, the point is affine on the curve with y not 0, from the first accepted candidate, and a function of the string. False: the y coordinate is not normalised to the even root. C110_hypotheses shows that the hypotheses are met. That some candidate is accepted depends on the hash and is not claimed."
  },
  {
   "property": "C111",
   "status": "proved",
   "theorems": [
    "C111_values_hidden",
    "C111_answer",
    "C111_only_the_sum"
   ],
   "note": "Over an ideal oblivious transfer that delivers exactly the chosen messages (C55 for the transfer of the library). Sum_Send_messages and Sum_Receive_answer show that the messages are those of the programs; C111_hypotheses shows that the hypotheses are met."
  },
  {
   "property": "C112",
   "status": "partial",
   "theorems": [
    "C112_elgamal_new",
    "C112_exponential_new",
    "C112_twisted_new",
    "C112_reused_partial",
    "C112_reused_refuted",
    "C112_signature",
    "C112_several_partial",
    "C112_twisted_several_partial",
    "C112_several_refuted",
    "C112_twisted_several_refuted",
    "C112_parameters",
    "C112_generator",
    "C112_x25519"
   ],
   "note": "False in part: a multi-recipient ciphertext read into a new object has no receivers (and in the twisted variant the wrong common half), and a ciphertext with a point at infinity read into a used object keeps the old half. Everything else is proved: single ciphertexts and signatures into new objects for every randomness, into used objects when the points are finite, X25519 into any object."
  },
  {
   "property": "C113",
   "status": "partial",
   "theorems": [
    "C113_never_wrong",
    "C113_finished_peer",
    "C113_hangs_refuted",
    "C113_psi_receiver"
   ],
   "note": "The first half is proved for every protocol for which completion is proved: never a wrong result, never a failure, a bounded number of steps. The second half is false: whenever the peer stops before its last message has arrived in full, the other party waits for ever, since the loop of ReceiveDataInternal has no case for the end of the stream."
  },
  {
   "property": "C114",
   "status": "partial",
   "theorems": [
    "C114_order_partial",
    "C114_rejected",
    "C114_finished",
    "C114_between_refuted",
    "C114_overflow_refuted",
    "C114_key_lost_refuted",
    "C114_cut_fields_partial",
    "C114_cut_unnoticed_refuted"
   ],
   "note": "False as stated. Proved: at every crash point each of the three files is untouched or a prefix of its new content, they are written in the order sender, receiver, transaction, and no other file changes; a rejected transaction changes no file; a finished run leaves both new accounts; complete fields of a truncated account file are read right. Refuted: a crash between the two saves loses the amount; so does a receiver balance too large to decrypt, without any crash; while an account is being saved the disk holds no trace of its secret key; a file without its last bytes is fetched without notice with a serial number that depends on uninitialised memory. One-to-one transactions."
  },
  {
   "property": "C115",
   "status": "partial",
   "theorems": [
    "C115_one_to_one_refuted",
    "C115_one_to_many_partial",
    "C115_mixed_refuted"
   ],
   "note": "True of one-to-many transactions, for histories of any length (C115_one_to_many_partial), where the serial number advances. False of one-to-one transactions: UpdateAccount leaves the serial number as it is, so the second transaction overwrites the file of the first and no copy is left (C115_one_to_one_refuted); a one-to-many transaction made after a one-to-one transaction overwrites it too (C115_mixed_refuted)."
  },
  {
   "property": "C116",
   "status": "partial",
   "theorems": [
    "C116_permutation",
    "C116_uniform_partial",
    "C116_seed_refuted",
    "C116_predictable_refuted"
   ],
   "note": "A shuffle always returns a permutation of its input (C116_permutation), and every order comes from exactly one list of draws, so independent uniform draws would make all orders equally likely (C116_uniform_partial). Both other parts are false: the generator is a std::mt19937 seeded once with the 32 bits of one rd(), so from 13 items on some order is never taken under any seed, after any earlier use (C116_seed_refuted), and 624 outputs in a row determine all later ones (C116_predictable_refuted)."
  },
  {
   "property": "C117",
   "status": "proved",
   "theorems": [
    "C117_number",
    "C117_point",
    "C117_name",
    "C117_encoding",
    "C117_records"
   ],
   "note": "C117_encoding shows that these strings meet what C94 and C115 assume of the encoding. What is in the files of one-to-one transactions is C115 (refuted there)."
  },
  {
   "property": "C118",
   "status": "partial",
   "theorems": [
    "C118_between",
    "C118_generator",
    "C118_generator_uniform",
    "C118_vector",
    "C118_coprime",
    "C118_coprime_ends",
    "C118_coprime_all",
    "C118_safe_prime",
    "C118_natural",
    "C118_absolute_partial",
    "C118_empty_range_refuted",
    "C118_coprime_refuted",
    "C118_absolute_refuted",
    "C118_half_refuted",
    "C118_same_second_refuted"
   ],
   "note": "Proved for generators, non-empty ranges, moduli above 1 and safe primes over an exact primality test. False for empty ranges and moduli that are not positive, and for the signed vectors of the tests (-MAX is drawn; half of a large range is not; equal within a second)."
  },
  {
   "property": "C119",
   "status": "partial",
   "theorems": [
    "C119_order_partial",
    "C119_between_refuted",
    "C119_overflow_refuted"
   ],
   "note": "The order of the files and the state of each at every crash point are proved. The total is false: for every number n of receivers there is a crash point with the sender and exactly n receivers written, and the rest of the amount is gone. The process also stops by itself between the files when a receiver's balance grows too large to decrypt."
  },
  {
   "property": "C120",
   "status": "proved",
   "theorems": [
    "C120_point_set",
    "C120_bits",
    "C120_string_set",
    "C120_hash_equal",
    "C120_25519_set",
    "C120_point_order",
    "C120_25519_order",
    "C120_25519_file",
    "C120_25519_short_file"
   ],
   "note": "std::unordered_set is modelled as buckets with an arbitrary hash and arbitrary rehashing; the standard library's own code is not read."
  },
  {
   "property": "C121",
   "status": "partial",
   "theorems": [
    "C121_schedule",
    "C121_no_race",
    "C121_finishes",
    "C121_bounded",
    "C121_pointwise",
    "C121_assignments",
    "C121_ecb",
    "C121_ecb_round_trip",
    "C121_xor",
    "C121_slices",
    "C121_table",
    "C121_own_index",
    "C121_permuted",
    "C121_grid",
    "C121_owner",
    "C121_packing",
    "C121_packing_transposed",
    "C121_mapping",
    "C121_clearing",
    "C121_mapping_value",
    "C121_clearing_value",
    "C121_contain",
    "C121_contain_race_refuted",
    "C121_not_injective_refuted",
    "C121_lost_bit_refuted"
   ],
   "note": "False for the Bloom filter's lookup: the flag it shares is read and written without atomic (C121_contain_race_refuted), so only its answer under one-at-a-time accesses is proved. Accesses are atomic in the model; the functions computed by the bodies are parameters. not_injective and lost_bit show that the hypotheses are needed. C121_assignments takes the random values drawn inside the Naor-Pinkas loop as stored beforehand."
  }
 ]
}
