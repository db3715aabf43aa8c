{
 "claims": [
  {
   "property": "C01",
   "status": "proved",
   "theorems": [
    "C01_insert_conserves"
   ],
   "note": ""
  },
  {
   "property": "C02",
   "status": "proved",
   "theorems": [
    "C02_lookup_complete",
    "C02_lookup_finds_inserted"
   ],
   "note": ""
  },
  {
   "property": "C03",
   "status": "proved",
   "theorems": [
    "C03_capacities",
    "C03_capacities_deletions"
   ],
   "note": ""
  },
  {
   "property": "C04",
   "status": "proved",
   "theorems": [
    "C04_growth"
   ],
   "note": ""
  },
  {
   "property": "C05",
   "status": "proved",
   "theorems": [
    "C05_overflow_abort_iff_loss",
    "C05_release_build_loses_element",
    "C05_overflow_deletions"
   ],
   "note": ""
  },
  {
   "property": "C06",
   "status": "proved",
   "theorems": [
    "C06_plain",
    "C06_elgamal_payload",
    "C06_paillier_payload",
    "C06_deletion"
   ],
   "note": "all four kinds of encrypted trees; protobuf encoding not modelled"
  },
  {
   "property": "C07",
   "status": "proved",
   "theorems": [
    "C07_shape_plain",
    "C07_shape_payload",
    "C07_indistinguishable_shape"
   ],
   "note": "shape = number of nodes, order, entries per node; byte lengths of Paillier ciphertexts (minimal big-endian) are not part of the shape"
  },
  {
   "property": "C08",
   "status": "proved",
   "theorems": [
    "C08_path_indices"
   ],
   "note": ""
  },
  {
   "property": "C09",
   "status": "proved",
   "theorems": [
    "C09_leaf_index",
    "C09_payload_independent"
   ],
   "note": ""
  },
  {
   "property": "C10",
   "status": "proved",
   "theorems": [
    "C10_full_path"
   ],
   "note": ""
  },
  {
   "property": "C11",
   "status": "proved",
   "theorems": [
    "C11_signed_updates"
   ],
   "note": ""
  },
  {
   "property": "C12",
   "status": "proved",
   "theorems": [
    "C12_cancelled_vanish"
   ],
   "note": ""
  },
  {
   "property": "C13",
   "status": "proved",
   "theorems": [
    "C13_encrypted_files",
    "C13_lookups_agree",
    "C13_plaintext_files"
   ],
   "note": "protobuf encoding itself is not modelled (messages are their field values)"
  },
  {
   "property": "C14",
   "status": "proved",
   "theorems": [
    "C14_node_kinds",
    "C14_candidate_kinds"
   ],
   "note": ""
  },
  {
   "property": "C15",
   "status": "proved",
   "theorems": [
    "C15_padding",
    "C15_no_collision"
   ],
   "note": ""
  },
  {
   "property": "C16",
   "status": "proved",
   "theorems": [
    "C16_cardinality",
    "C16_exact"
   ],
   "note": "for all coins; group of prime order >= 2*10^15; a stash overflow can only make results missing (partly), C16_exact is the case without overflow"
  },
  {
   "property": "C17",
   "status": "proved",
   "theorems": [
    "C17_intersection",
    "C17_zero_element_fails"
   ],
   "note": "element 0 in a batch of party zero makes every run fail, proved separately"
  },
  {
   "property": "C18",
   "status": "proved",
   "theorems": [
    "C18_sum",
    "C18_too_large"
   ],
   "note": "needs the total of the values below the group order and fewer than 2^31 days (the loop counter is an int)"
  },
  {
   "property": "C19",
   "status": "proved",
   "theorems": [
    "C19_shares"
   ],
   "note": "threshold keys from any two distinct primes"
  },
  {
   "property": "C20",
   "status": "proved",
   "theorems": [
    "C20_inner_product",
    "C20_no_crash",
    "C20_cardinality",
    "C20_sum",
    "C20_share_conversion",
    "C20_wrong_shares_counted"
   ],
   "note": "the garbled circuit and the oblivious transfer are modelled by the values they deliver; C20_share_conversion and C20_wrong_shares_counted say exactly when a share conversion gives a wrong result and how many of the n shares do so"
  },
  {
   "property": "C21",
   "status": "proved",
   "theorems": [
    "C21_product_shares",
    "C21_only_failures"
   ],
   "note": "for every circuit input function; equal circuit inputs of different values are the hypothesis of the last conjunct"
  },
  {
   "property": "C22",
   "status": "proved",
   "theorems": [
    "C22_intersection",
    "C22_cardinality",
    "C22_zero_never",
    "C22_return_is_decided_by_the_shuffle",
    "C22_no_crash"
   ],
   "note": "deletion-psi: for every pair of proper deletion/addition histories, keys, coins and every day prefix on which no entry was lost to a full stash, the circuit told values apart and the random shares left room, the set kept by party zero is exactly the intersection of the current sets if no element leaves and re-enters it on one day; the counter is its size in every case; 0 is never in the set, unconditionally; an element that leaves and returns on one day is kept or lost depending on the shuffle (concrete runs of both); C22_no_crash: a run ends well or with an error, except that opening the value 2^63 is undefined behaviour (party_zero.cc:99-103), which needs a day that was not lucky"
  },
  {
   "property": "C23",
   "status": "proved",
   "theorems": [
    "C23_original_intersection",
    "C23_exact"
   ],
   "note": "the OPRF is modelled as exponentiation in an abstract cyclic group, hash to the curve as a function; the no-collision hypothesis is about that function; missing elements only if the tree of PartyOne lost an entry to a full stash"
  },
  {
   "property": "C24",
   "status": "proved",
   "theorems": [
    "C24_finished_refuses",
    "C24_original",
    "C24_deletion"
   ],
   "note": "all four addition-only servers, the server of the original construction, and the two deletion servers (there: between finishing a day and the reset of the next one); for every sequence of requests"
  },
  {
   "property": "C25",
   "status": "proved",
   "theorems": [
    "C25_wrong_kind",
    "C25_original",
    "C25_deletion"
   ],
   "note": "for every server; only the byte counter may change (nothing at all for the deletion servers)"
  },
  {
   "property": "C26",
   "status": "proved",
   "theorems": [
    "C26_days",
    "C26_batches",
    "C26_only_today",
    "C26_original",
    "C26_original_only_today",
    "C26_deletion",
    "C26_deletion_psi"
   ],
   "note": "for every request sequence, well formed or not; C26_batches says which daily batches are in the own tree afterwards; C26_only_today: replies and states do not depend on other days' data"
  },
  {
   "property": "C27",
   "status": "proved",
   "theorems": [
    "C27_third_without_first",
    "C27_first_twice"
   ],
   "note": "existence of the accepted out-of-order exchanges is shown by concrete runs (ex_C27_twice, ex_C27_third)"
  },
  {
   "property": "C28",
   "status": "proved",
   "theorems": [
    "C28_elgamal_homomorphic"
   ],
   "note": ""
  },
  {
   "property": "C29",
   "status": "proved",
   "theorems": [
    "C29_joint_decryption",
    "C29_masked_equality_test",
    "C29_no_shares"
   ],
   "note": ""
  },
  {
   "property": "C30",
   "status": "proved",
   "theorems": [
    "C30_decrypt_exp"
   ],
   "note": ""
  },
  {
   "property": "C31",
   "status": "proved",
   "theorems": [
    "C31_exponentiate_wrong"
   ],
   "note": ""
  },
  {
   "property": "C32",
   "status": "proved",
   "theorems": [
    "C32_paillier_decrypts",
    "C32_paillier_ranges",
    "C32_reported_randomness",
    "C32_key_generation",
    "C32_exponent_too_large"
   ],
   "note": "every exponent s (Damgard-Jurik), not only the s = 1 the protocols use; BN_is_prime_ex is modelled as an exact primality test; ranges are over safe primes accepted by the constructor"
  },
  {
   "property": "C33",
   "status": "proved",
   "theorems": [
    "C33_threshold_decrypts",
    "C33_threshold_ranges",
    "C33_equal_primes_break"
   ],
   "note": "GenerateSafePrime is modelled by its result; C33_equal_primes_break shows the distinctness hypothesis is needed and not checked by the code"
  },
  {
   "property": "C34",
   "status": "proved",
   "theorems": [
    "C34_crt",
    "C34_crt_not_coprime"
   ],
   "note": ""
  },
  {
   "property": "C35",
   "status": "proved",
   "theorems": [
    "C35_fixed_base_exp",
    "C35_constructor"
   ],
   "note": "MontBigNum is modelled by the residue it represents"
  },
  {
   "property": "C36",
   "status": "proved",
   "theorems": [
    "C36_commutative_cipher",
    "C36_key_range",
    "C36_seed_key_unchecked",
    "C36_commutative_elgamal",
    "C36_elgamal_layers",
    "C36_elgamal_key_bytes"
   ],
   "note": "the curve is an arbitrary cyclic group of prime order"
  },
  {
   "property": "C37",
   "status": "proved",
   "theorems": [
    "C37_bytes_roundtrip",
    "C37_bytes_canonical"
   ],
   "note": ""
  },
  {
   "property": "C38",
   "status": "proved",
   "theorems": [
    "C38_block_roundtrip",
    "C38_ciphertext_width",
    "C38_uint64"
   ],
   "note": ""
  },
  {
   "property": "C39",
   "status": "proved",
   "theorems": [
    "C39_circuit_input",
    "C39_undefined_reachable"
   ],
   "note": "digest functions are arbitrary functions of the right output length"
  },
  {
   "property": "C40",
   "status": "proved",
   "theorems": [
    "C40_random_oracle",
    "C40_prf",
    "C40_random_numbers"
   ],
   "note": "binary32 rounding of iter_count is modelled; ranges up to 2^24 bits; unbounded loops are modelled with fuel (None = still running)"
  },
  {
   "property": "C41",
   "status": "proved",
   "theorems": [
    "C41_splitting",
    "C41_roundtrip",
    "C41_only_clean",
    "C41_empty_line",
    "C41_missing_value",
    "C41_numbers"
   ],
   "note": "the in-place splitter is modelled at the level of buffer and cursors; opening and closing files is assumed to succeed; an element survives writing and reading exactly if it has no newline and no NUL"
  },
  {
   "property": "C42",
   "status": "proved",
   "theorems": [
    "C42_as_requested",
    "C42_overlap",
    "C42_always",
    "C42_refused",
    "C42_loaded"
   ],
   "note": "all sizes are uint32 with wrap-around; C42_loaded connects the loaded data with the hypotheses of C16-C19"
  },
  {
   "property": "C43",
   "status": "proved",
   "theorems": [
    "C43_deletes_what_is_present",
    "C43_returns",
    "C43_refused",
    "C43_loaded",
    "C43_psi"
   ],
   "note": "std::map is modelled as an unordered association list (the order only decides which entry a random index denotes); for PSI the element 000...0 has the value 0, so its deletion cannot be told from its addition (excluded in C43_psi); C43_loaded and C43_psi connect the data with C20 and C22"
  },
  {
   "property": "C44",
   "status": "proved",
   "theorems": [
    "C44_roundtrip",
    "C44_succeeds",
    "C44_single",
    "C44_single_succeeds",
    "C44_only_that_file",
    "C44_truncated",
    "C44_overlong",
    "C44_any_content"
   ],
   "note": "every call of the operating system may fail; parse and serialisation of messages are arbitrary functions; C44_truncated and C44_any_content are for damaged files read without I/O failures"
  },
  {
   "property": "C45",
   "status": "proved",
   "theorems": [
    "C45_sorted",
    "C45_succeeds"
   ],
   "note": "for every key function into a strict total order (string_order and int64_order are the two instances in the code) and every choice of the priority queue among equal keys; Write runs under a mutex, so threads are interleavings of whole writes"
  },
  {
   "property": "C46",
   "status": "proved",
   "theorems": [
    "C46_processed",
    "C46_succeeds",
    "C46_error",
    "C46_zero_chunk",
    "C46_zero_threads"
   ],
   "note": "the transformer, parsing and serialisation are arbitrary functions (the transformer pure and returning a status); threads interleave at the granularity of calls of the transformer"
  },
  {
   "property": "C47",
   "status": "proved",
   "theorems": [
    "C47_flag_roundtrip"
   ],
   "note": ""
  },
  {
   "property": "C48",
   "status": "proved",
   "theorems": [
    "C48_one_reply",
    "C48_status_codes"
   ],
   "note": ""
  },
  {
   "property": "C49",
   "status": "proved",
   "theorems": [
    "C49_prepared_trees",
    "C49_wrong_kind"
   ],
   "note": "the tree files are the messages of C13 (round trip proved there); the setup program is addition/setup.cc with the parties' joint key"
  },
  {
   "property": "C50",
   "status": "proved",
   "theorems": [
    "C50_cardinality",
    "C50_exact",
    "C50_intersection",
    "C50_sum",
    "C50_shares"
   ],
   "note": "C50_exact is the case without stash overflow"
  },
  {
   "property": "C51",
   "status": "proved",
   "theorems": [
    "C51_setup",
    "C51_cardinality",
    "C51_intersection",
    "C51_sum",
    "C51_shares"
   ],
   "note": "the strings drawn are assumed to differ (10^15 possibilities); for SUM start_size * max_value <= 2^31, because the sum over the initial sets is kept in an int; start_size^2 < 2^31 only in C51_setup"
  },
  {
   "property": "C52",
   "status": "proved",
   "theorems": [
    "C52_threshold",
    "C52_threshold_only",
    "C52_threshold_succeeds",
    "C52_paillier",
    "C52_elgamal"
   ],
   "note": "message serialisation is any faithful codec; file names are compared after collapsing repeated slashes (the code writes p0//elgamal.pub and reads p0/elgamal.pub); the primes are arguments (C40)"
  },
  {
   "property": "C53",
   "status": "proved",
   "theorems": [
    "C53_addition",
    "C53_original"
   ],
   "note": "message sizes are arbitrary functions of the messages; the servers of the deletion protocols are not covered (they count what each party sends, without a server loop)"
  },
  {
   "property": "C54",
   "status": "proved",
   "theorems": [
    "C54_initial_sets",
    "C54_exact",
    "C54_setup",
    "C54_announced"
   ],
   "note": "files are modelled by their messages (C44, C52 are about the files themselves); different elements of the two data sets are assumed to have different points; generated strings are assumed to differ (10^15 possibilities)"
  },
  {
   "property": "C55",
   "status": "proved",
   "theorems": [
    "C55_hash_to_curve",
    "C55_distinct",
    "C55_related_messages",
    "C55_encodings",
    "C55_point_util",
    "C55_points"
   ],
   "note": "BN_mod_sqrt is any function that finds a root when there is one; the digests are arbitrary functions with outputs of the right length; BoringSSL's point conversions are modelled from SEC 1 and are part of the trusted base; the SSWU map is a library function and not modelled; the group law is not modelled here (Group.v is abstract)"
  },
  {
   "property": "C56",
   "status": "proved",
   "theorems": [
    "C56_change_of_result",
    "C56_psi",
    "C56_psi_no_crash",
    "C56_setup_returns"
   ],
   "note": "key files (C52), directories and printing are not part of this model; for the intersection an element consisting of zeros is excluded; C56_psi describes returning runs, C56_psi_no_crash the others; the announced number agrees with the result for empty and non-empty initial sets because both are differences"
  },
  {
   "property": "C57",
   "status": "proved",
   "theorems": [
    "C57_arithmetic",
    "C57_equality",
    "C57_bytes",
    "C57_mixed",
    "C57_mixed_equality",
    "C57_refused",
    "C57_fixed_base",
    "C57_refines"
   ],
   "note": "BN_mod_mul_montgomery, BN_to_montgomery and BN_from_montgomery are modelled by their contract (OpenSSL is outside the repository); moved-from objects are not modelled; bytes that are not below the modulus are outside the contract"
  },
  {
   "property": "C58",
   "status": "proved",
   "theorems": [
    "C58_lookup",
    "C58_lookup_deletion",
    "C58_prefix",
    "C58_bound",
    "C58_message_i",
    "C58_message_ii",
    "C58_deletion_i",
    "C58_deletion_ii",
    "C58_deletion_psi_i",
    "C58_deletion_psi_ii",
    "C58_same",
    "C58_leak"
   ],
   "note": "counts ciphertexts, not bytes (the byte length of a serialized number can vary by leading zeros); replicas start empty (trees of the setup are received as an update with the same effect); the number of nodes in an update is C07; messages III and IV have one ciphertext or one share each and the garbled circuits one gate vector per candidate"
  },
  {
   "property": "C59",
   "status": "proved",
   "theorems": [
    "C59_deletion_serial",
    "C59_deletion_each_day",
    "C59_deletion_right_day",
    "C59_deletion_stuck",
    "C59_deletion_failure",
    "C59_deletion_bounded",
    "C59_deletion_possible",
    "C59_deletion_result",
    "C59_psi_serial",
    "C59_psi_each_day",
    "C59_psi_right_day",
    "C59_psi_stuck",
    "C59_psi_failure",
    "C59_psi_bounded",
    "C59_psi_possible",
    "C59_psi_result"
   ],
   "note": "steps of the threads are atomic between the points where they can affect each other (volatile flags are treated as read and written in program order: the C++ code has a data race there, which the standard calls undefined); one client; the garbled circuits are one rendezvous; Shutdown waits for running handlers as documented by gRPC; the retry behaviour of the gRPC channel is not modelled (a call to a server not yet started fails)"
  },
  {
   "property": "C60",
   "status": "proved",
   "theorems": [
    "C60_cardinality",
    "C60_intersection",
    "C60_sum",
    "C60_shares",
    "C60_original",
    "C60_cardinality_result",
    "C60_intersection_result",
    "C60_sum_result",
    "C60_shares_result",
    "C60_original_result"
   ],
   "note": "steps of the threads are atomic between the points where they can affect each other (the spin loop reads current_day without synchronisation: a data race in the C++ code, undefined by the standard, treated here as a read in program order); one client; Shutdown waits for running handlers as documented by gRPC"
  },
  {
   "property": "C61",
   "status": "proved",
   "theorems": [
    "C61_deletion_trees",
    "C61_shares_zero_trees",
    "C61_shares_one_trees",
    "C61_in_step",
    "C61_in_step_deletion",
    "C61_sizes_differ",
    "C61_constant",
    "C61_upper_bound"
   ],
   "note": "the failure branch of CreateMockTrees (printed and ignored) is modelled but shown unreachable with valid keys; traffic is counted in ciphertexts found per lookup"
  },
  {
   "property": "C62",
   "status": "proved",
   "theorems": [
    "C62_deletion_party_one",
    "C62_psi_party_one",
    "C62_deletion_party_zero",
    "C62_psi_party_zero",
    "C62_same_day",
    "C62_same_half",
    "C62_exact",
    "C62_undercount",
    "C62_no_days"
   ],
   "note": "ByteSizeLong of the body of a message is an arbitrary function; the counter of emp's socket is given by the environment"
  },
  {
   "property": "C63",
   "status": "proved",
   "theorems": [
    "C63_match_bit",
    "C63_intersection",
    "C63_shares",
    "C63_equality_mask",
    "C63_product_shares",
    "C63_original_mask",
    "C63_original_same_point"
   ],
   "note": "Exact counting over one uniform draw (two for the intersection); the observed value is what the named party obtains by decrypting. Computational secrecy of the encryptions themselves and the uniformity of std::shuffle are not claimed. Finding: in the original construction all matches of one message carry the same blinding point, so two matches on one day reveal themselves (and their positions) to party one."
  },
  {
   "property": "C64",
   "status": "proved",
   "theorems": [
    "C64_self_test",
    "C64_elgamal_results",
    "C64_paillier_results",
    "C64_setup_names",
    "C64_missing_key"
   ],
   "note": "SelfTestModel.v; the draws are arbitrary tapes, sizes and table limit are parameters; timers and announcements are left out"
  },
  {
   "property": "C65",
   "status": "proved",
   "theorems": [
    "C65_join",
    "C65_empty",
    "C65_one_level",
    "C65_no_collision",
    "C65_dots_collide"
   ],
   "note": "PathModel.v; specification in PathSpec.v"
  },
  {
   "property": "C66",
   "status": "proved",
   "theorems": [
    "C66_ec_key",
    "C66_ec_key_succeeds",
    "C66_unchecked"
   ],
   "note": "PathModel.v over the files of FileModel; OpenSSL's table of curves is an arbitrary partial function from ids to groups; the codec of the message is any faithful one"
  },
  {
   "property": "C67",
   "status": "proved",
   "theorems": [
    "C67_only",
    "C67_cardinality",
    "C67_intersection",
    "C67_sum",
    "C67_shares",
    "C67_truncated_read"
   ],
   "note": "ProgModel.v over FileModel, KeyModel and DeployModel; message codecs are any faithful ones; the primes drawn by setup are arguments (C40); messages between the parties are passed directly (C49, C50)"
  },
  {
   "property": "C68",
   "status": "proved",
   "theorems": [
    "C68_only",
    "C68_announced",
    "C68_no_trees"
   ],
   "note": "OrigProgModel.v over FileModel, KeyModel and OrigSetupModel; message codecs are any faithful ones; messages between the parties are passed directly"
  },
  {
   "property": "C69",
   "status": "proved",
   "theorems": [
    "C69_only",
    "C69_change_of_result",
    "C69_psi",
    "C69_psi_no_crash",
    "C69_not_imported"
   ],
   "note": "DelProgModel.v over FileModel, KeyModel and DelSetupModel; message codecs are any faithful ones; the primes drawn by setup are arguments (C40); messages between the parties are passed directly; conditions as in C56 (trees that hold the initial sets, lucky days)"
  },
  {
   "property": "C70",
   "status": "proved",
   "theorems": [
    "C70_roundtrip",
    "C70_network",
    "C70_keys",
    "C70_trees",
    "C70_unknown_field",
    "C70_file",
    "C70_garbage_accepted",
    "C70_wrong_kind",
    "C70_layout_keys",
    "C70_layout_elements",
    "C70_layout_files",
    "C70_layout_network",
    "C70_last_wins",
    "C70_codecs",
    "C70_faithful_codecs"
   ],
   "note": "ProtoModel.v: the wire format and all message types; ProtoCodec.v: the fields the programs fill. The protobuf runtime and the generated classes follow the format's documentation; unknown fields are dropped instead of kept; gRPC framing is not modelled; the encoding of a point is any injective one (C55). What a message holds after a failed parse is unspecified."
  },
  {
   "property": "C71",
   "status": "proved",
   "theorems": [
    "C71_cardinality",
    "C71_intersection",
    "C71_sum",
    "C71_shares",
    "C71_original",
    "C71_deletion",
    "C71_deletion_psi",
    "C71_cardinality_result",
    "C71_intersection_result",
    "C71_sum_result",
    "C71_shares_result",
    "C71_original_result",
    "C71_deletion_result",
    "C71_deletion_no_crash",
    "C71_deletion_psi_result",
    "C71_message_size",
    "C71_deletion_psi_no_crash",
    "C71_capacity",
    "C71_too_large",
    "C71_reply_too_large",
    "C71_points_size"
   ],
   "note": "NetModel.v: calls as bytes. gRPC follows its documentation (limits, a failed call is an error for the client); connections that break are C46 and C60. The secure computations of the deletion protocols do not go over these messages. C71_capacity is for elements without payload and 33-byte points; C71_message_size is for any."
  },
  {
   "property": "C72",
   "status": "proved",
   "theorems": [
    "C72_cardinality",
    "C72_intersection",
    "C72_sum",
    "C72_shares",
    "C72_original",
    "C72_deletion",
    "C72_deletion_psi",
    "C72_cardinality_result",
    "C72_intersection_result",
    "C72_sum_result",
    "C72_shares_result",
    "C72_original_result",
    "C72_deletion_result",
    "C72_deletion_not_imported",
    "C72_deletion_psi_result",
    "C72_deletion_psi_no_crash",
    "C72_protobuf",
    "C72_protobuf_all"
   ],
   "note": "EndModel.v: the programs of ProgModel, OrigProgModel and DelProgModel with their messages over NetModel's wire. C72_protobuf states it for cardinality with protobuf's files, C72_protobuf_all for the other protocols."
  },
  {
   "property": "C73",
   "status": "proved",
   "theorems": [
    "C73_bits",
    "C73_nothing_learned",
    "C73_shares",
    "C73_own_masks",
    "C73_deletion",
    "C73_psi",
    "C73_inner_product",
    "C73_intersection",
    "C73_cardinality",
    "C73_in_step",
    "C73_rand_irrelevant",
    "C73_deletion_no_crash",
    "C73_psi_no_crash"
   ],
   "note": "GcModel.v: GarbledCircuit and SecondPhase of both parties, statement by statement, with three coin sources (rand(), party zero, party one). emp-toolkit keeps its contract: comparisons, xor, reveal and oblivious transfer do what they say and its sockets deliver; its own randomness is not modelled. C73_nothing_learned counts bit sequences; it is not a statement about an adversary. The shuffle is party one's, its permutation comes from its generator."
  },
  {
   "property": "C74",
   "status": "proved",
   "theorems": [
    "C74_deletion_same",
    "C74_psi_same",
    "C74_deletion_positions",
    "C74_deletion_stack",
    "C74_deletion_enough",
    "C74_deletion_crash",
    "C74_psi_positions",
    "C74_psi_stack",
    "C74_psi_enough",
    "C74_psi_crash"
   ],
   "note": "StackModel.v over GcModel: each call of GarbledCircuit(bool) is given a number of bytes of stack for its variable-length arrays; sizes of emp's classes are parameters (24 and 16 bytes in the examples); what else is on the stack is not counted. Exceeding the stack is undefined behaviour (in practice a segmentation fault)."
  },
  {
   "property": "C75",
   "status": "proved",
   "theorems": [
    "C75_deletion_result",
    "C75_not_imported",
    "C75_psi_result",
    "C75_network",
    "C75_rand_irrelevant",
    "C75_own_generators"
   ],
   "note": "OwnModel.v: files (DelProgModel), bytes (NetModel) and two processes with their coins and circuits (GcModel) at once, over all tapes of the three generators. Composed from C69 (what setup leaves and what the processes read back), C71 (bytes), C73 (each run of the two processes is a possible run of the one-tape model) and the crash results of C20 and C22. Party one starts first; the environments keep the files."
  },
  {
   "property": "C76",
   "status": "proved",
   "theorems": [
    "C76_same",
    "C76_deletion_stack",
    "C76_psi_stack",
    "C76_deletion_sizes",
    "C76_psi_sizes"
   ],
   "note": "OwnStackModel.v: the programs of C75 with the circuits of C74. C76_same together with C75 says that results are right under any limit. C76_deletion_sizes and C76_psi_sizes are about parties that start with empty trees (--import off); with imported trees C76_deletion_stack and C76_psi_stack give the condition in terms of the positions of each day."
  }
 ]
}