{
 "claims": [
  {
   "property": "C01",
   "status": "proved",
   "theorems": [
    "C01_cascade_shape",
    "C01_negative_layers"
   ],
   "note": "All server lists and layer counts (within int32, the type of the recorded fields)."
  },
  {
   "property": "C02",
   "status": "proved",
   "theorems": [
    "C02_names_identify_mixes"
   ],
   "note": "All server lists and layer counts."
  },
  {
   "property": "C03",
   "status": "proved",
   "theorems": [
    "C03_chain_traversal"
   ],
   "note": "All chains; the walk relation is deterministic."
  },
  {
   "property": "C04",
   "status": "proved",
   "theorems": [
    "C04_server_schedule"
   ],
   "note": "Every map iteration order and every sorted result of sort.Slice."
  },
  {
   "property": "C05",
   "status": "proved",
   "theorems": [
    "C05_propagation",
    "C05_new_round",
    "C05_new_round_total",
    "C05_crash_iff"
   ],
   "note": "Cascades of any size. FINDING: a workload of 2^63 or more for a chain through the host crashes NewRound (iff)."
  },
  {
   "property": "C06",
   "status": "proved",
   "theorems": [
    "C06_answers",
    "C06_get_not_found",
    "C06_end_needs_open",
    "C06_end_count",
    "C06_never_closed_twice",
    "C06_isolation"
   ],
   "note": "Every interleaving of handlers and mixer steps; a crash of the process ends every round."
  },
  {
   "property": "C07",
   "status": "proved",
   "theorems": [
    "C07_reopen_discards",
    "C07_replaced_object_leaks"
   ],
   "note": "FINDING: also the replaced object is never closed."
  },
  {
   "property": "C08",
   "status": "proved",
   "theorems": [
    "C08_outputs_are_decryptions",
    "C08_server"
   ],
   "note": "Every execution of the mixer LTS, hostile batches included; every decryption function, worker count and channel capacity."
  },
  {
   "property": "C09",
   "status": "proved",
   "theorems": [
    "C09_visible_iff_shuffled",
    "C09_stable"
   ],
   "note": "Every reachable state and every later state."
  },
  {
   "property": "C10",
   "status": "proved",
   "theorems": [
    "C10_no_crash",
    "C10_terminates",
    "C10_completes",
    "C10_final_state_reachable"
   ],
   "note": "Measure-based termination; no fairness assumption needed because every maximal internal run is finite."
  },
  {
   "property": "C11",
   "status": "proved",
   "theorems": [
    "C11_crash_inevitable"
   ],
   "note": "FINDING: not just reachable but inevitable (every final state is a crash); also for unparsable onions."
  },
  {
   "property": "C12",
   "status": "proved",
   "theorems": [
    "C12_emissions",
    "C12_emitted_exactly",
    "C12_late_empty_batch_refuted"
   ],
   "note": "FINDING: each late empty batch forwards the whole output again (exact count proved)."
  },
  {
   "property": "C13",
   "status": "proved",
   "theorems": [
    "C13_no_batch_no_output",
    "C13_empty_output_not_forwarded"
   ],
   "note": "FINDING."
  },
  {
   "property": "C14",
   "status": "proved",
   "theorems": [
    "C14_shuffle_permutes",
    "C14_oblivious"
   ],
   "note": "Every random source (arbitrary state machine) and every call history."
  },
  {
   "property": "C15",
   "status": "proved",
   "theorems": [
    "C15_every_ordering_exactly_once",
    "C15_draw_bias"
   ],
   "note": "All lengths up to 2^32."
  },
  {
   "property": "C16",
   "status": "proved",
   "theorems": [
    "C16_header_roundtrip",
    "C16_panics_exactly"
   ],
   "note": ""
  },
  {
   "property": "C17",
   "status": "proved",
   "theorems": [
    "C17_grouping_partitions"
   ],
   "note": "Both grouping functions, every iteration order."
  },
  {
   "property": "C18",
   "status": "proved",
   "theorems": [
    "C18_onion_peels",
    "C18_generateOnion"
   ],
   "note": "generateOnion modelled with the encryption scheme as a parameter whose correctness is the hypothesis (provided by C26/C35/C36); L and number of chains at most 2^32 (header fields are uint32). C18_generateOnion lists the Reals axioms because it mentions the float64 chain count."
  },
  {
   "property": "C19",
   "status": "proved",
   "theorems": [
    "C19_chains",
    "C19_boundaries"
   ],
   "note": "binary64 arithmetic via Flocq; exact for n <= 2^51. FINDING: n = 2^51+2^26+1 gets one chain too few; n = 0 panics. Uses the axioms of the standard Reals library."
  },
  {
   "property": "C20",
   "status": "proved",
   "theorems": [
    "C20_quotas",
    "C20_collects_all",
    "C20_negative"
   ],
   "note": "All interleavings of producers and collector: no deadlock, bounded length, exactly numClients pairs."
  },
  {
   "property": "C21",
   "status": "proved",
   "theorems": [
    "C21_equal_length_hosts",
    "C21_same_host",
    "C21_collision_shape",
    "C21_ambiguous_refuted"
   ],
   "note": "FINDING."
  },
  {
   "property": "C22",
   "status": "proved",
   "theorems": [
    "C22_requests_carry_output",
    "C22_sender_crashes_iff",
    "C22_uuid_distinct",
    "C22_uuid_ignores_round"
   ],
   "note": "Every iteration order over both maps."
  },
  {
   "property": "C23",
   "status": "proved",
   "theorems": [
    "C23_eval",
    "C23_secret",
    "C23_shares"
   ],
   "note": "for every field; indices are 64-bit ints"
  },
  {
   "property": "C24",
   "status": "proved",
   "theorems": [
    "C24_reconstruct"
   ],
   "note": "every iteration order of both map ranges"
  },
  {
   "property": "C25",
   "status": "proved",
   "theorems": [
    "C25_public_share",
    "C25_no_deadlock",
    "C25_verify_share",
    "C25_empty_panics"
   ],
   "note": "An exponent polynomial with no coefficient panics"
  },
  {
   "property": "C26",
   "status": "proved",
   "theorems": [
    "C26_roundtrip",
    "C26_NewNode",
    "C26_authenticated"
   ],
   "note": "pairing laws and a length-preserving block function assumed of the setting; CFB mode is modelled and its correctness proved"
  },
  {
   "property": "C27",
   "status": "proved",
   "theorems": [
    "C27_in_place",
    "C27_failure_keeps",
    "C27_second_decrypt_fails",
    "C27_result_is_a_view",
    "C27_copy_protects",
    "C27_buffer_overwritten"
   ],
   "note": "FINDING"
  },
  {
   "property": "C28",
   "status": "proved",
   "theorems": [
    "C28_reconstruct"
   ],
   "note": ""
  },
  {
   "property": "C29",
   "status": "proved",
   "theorems": [
    "C29_too_few",
    "C29_determined"
   ],
   "note": "FINDING: Threshold is degree+2"
  },
  {
   "property": "C30",
   "status": "proved",
   "theorems": [
    "C30_accept_iff",
    "C30_unknown_node",
    "C30_validate",
    "C30_empty_polynomial_panics"
   ],
   "note": ""
  },
  {
   "property": "C31",
   "status": "proved",
   "theorems": [
    "C31_value",
    "C31_mixed_ids_refuted"
   ],
   "note": "FINDING"
  },
  {
   "property": "C32",
   "status": "proved",
   "theorems": [
    "C32_shared_key",
    "C32_generated_keys",
    "C32_hide_reveal",
    "C32_vote_correct",
    "C32_verify",
    "C32_verify_panics"
   ],
   "note": "Verify panics on an index out of range"
  },
  {
   "property": "C33",
   "status": "proved",
   "theorems": [
    "C33_reveal_never_fails",
    "C33_wrong_vote",
    "C33_refuted"
   ],
   "note": "FINDING"
  },
  {
   "property": "C34",
   "status": "proved",
   "theorems": [
    "C34_one_short",
    "C34_public_decryption",
    "C34_fails",
    "C34_no_keys"
   ],
   "note": "FINDING"
  },
  {
   "property": "C35",
   "status": "proved",
   "theorems": [
    "C35_poly",
    "C35_exponent_poly",
    "C35_share",
    "C35_public_key",
    "C35_index_range",
    "C35_master_key",
    "C35_cipher",
    "C35_poly_length",
    "C35_exponent_length",
    "C35_short_rejected",
    "C35_short_cipher",
    "C35_short_cipher_panics",
    "C35_poly_clobbered",
    "C35_exponent_kept",
    "C35_exponent_accepts",
    "C35_poly_accepts",
    "C35_share_accepts",
    "C35_public_key_accepts",
    "C35_cipher_accepts"
   ],
   "note": "FINDING: Poly.SetBytes overwrites its receiver on failure"
  },
  {
   "property": "C36",
   "status": "proved",
   "theorems": [
    "C36_node",
    "C36_encrypt",
    "C36_votes",
    "C36_one_vote_short",
    "C36_publisher",
    "C36_hide_reveal",
    "C36_too_few_servers"
   ],
   "note": "FINDING: with exactly degree servers the publishers get a public shared key without an error"
  },
  {
   "property": "C37",
   "status": "proved",
   "theorems": [
    "C37_complete",
    "C37_out_of_range"
   ],
   "note": "Every hash function."
  },
  {
   "property": "C38",
   "status": "proved",
   "theorems": [
    "C38_sound",
    "C38_sound_many",
    "C38_sound_no_clash",
    "C38_no_elements"
   ],
   "note": "The collision clause names the strings really hashed, so it is not vacuous for a compressing hash."
  },
  {
   "property": "C39",
   "status": "proved",
   "theorems": [
    "C39_inner_node_as_leaf",
    "C39_two_elements"
   ],
   "note": "FINDING."
  },
  {
   "property": "C40",
   "status": "proved",
   "theorems": [
    "C40_every_item_verifies",
    "C40_resigning_refuted"
   ],
   "note": "FINDING: re-signing a certified item."
  },
  {
   "property": "C41",
   "status": "proved",
   "theorems": [
    "C41_accepted",
    "C41_certificate_restored",
    "C41_refusals"
   ],
   "note": "Calls on pairwise different objects (see C62 for shared ones)."
  },
  {
   "property": "C42",
   "status": "proved",
   "theorems": [
    "C42_exact"
   ],
   "note": "Gives the exact verdict, not only nil."
  },
  {
   "property": "C43",
   "status": "proved",
   "theorems": [
    "C43_key_ignored_refuted",
    "C43_every_run"
   ],
   "note": "FINDING."
  },
  {
   "property": "C44",
   "status": "proved",
   "theorems": [
    "C44_valid_rejected_refuted",
    "C44_only_then"
   ],
   "note": "FINDING (the retry condition compares signatures the wrong way round)."
  },
  {
   "property": "C45",
   "status": "proved",
   "theorems": [
    "C45_roundtrip",
    "C45_stopped"
   ],
   "note": "The erasure code of the library is a parameter (laws: rs_laws; instance xor_code)"
  },
  {
   "property": "C46",
   "status": "proved",
   "theorems": [
    "C46_too_few",
    "C46_never_decoded",
    "C46_panics"
   ],
   "note": "Negative sizes panic"
  },
  {
   "property": "C47",
   "status": "proved",
   "theorems": [
    "C47_succeeds",
    "C47_fails",
    "C47_decides",
    "C47_stable",
    "C47_matches_code",
    "C47_duplicate_address",
    "C47_coordinator_panics",
    "C47_configured"
   ],
   "note": "FINDING: duplicate addresses make every robust call fail; a one-server configuration panics"
  },
  {
   "property": "C48",
   "status": "proved",
   "theorems": [
    "C48_servers",
    "C48_order_irrelevant",
    "C48_index",
    "C48_public_key",
    "C48_public_key_unknown",
    "C48_hostname",
    "C48_contain_key",
    "C48_inverse"
   ],
   "note": "Every configuration, duplicates included (the last entry wins)"
  },
  {
   "property": "C49",
   "status": "proved",
   "theorems": [
    "C49_runs",
    "C49_own_parcels",
    "C49_exactly_once",
    "C49_too_few",
    "C49_configured",
    "C49_twice",
    "C49_expiry"
   ],
   "note": "For every interleaving with other calls and expiry ticks; the threshold condition is met by the configured one"
  },
  {
   "property": "C50",
   "status": "proved",
   "theorems": [
    "C50_too_few_relays",
    "C50_repeated_parcel",
    "C50_relay_forwards_first"
   ],
   "note": "FINDING; concrete instance C50_example"
  },
  {
   "property": "C51",
   "status": "proved",
   "theorems": [
    "C51_accepted",
    "C51_reply",
    "C51_handler_error"
   ],
   "note": "End to end over any traffic; hypotheses: erasure-code laws, signature correctness, requests and replies below 2^32 bytes; also propagates handler errors"
  },
  {
   "property": "C52",
   "status": "proved",
   "theorems": [
    "C52_buffer_grows",
    "C52_earlier_reply"
   ],
   "note": "FINDING; instance C52_example. Assumes a codec reading one value from the front (BincHandle decoder)"
  },
  {
   "property": "C53",
   "status": "proved",
   "theorems": [
    "C53_only_note",
    "C53_changed_reply"
   ],
   "note": "FINDING; instance C53_forged: one relay changes the reply the client returns"
  },
  {
   "property": "C54",
   "status": "proved",
   "theorems": [
    "C54_resolves",
    "C54_unparsable",
    "C54_resolves_iff",
    "C54_lookup",
    "C54_lookup_fails",
    "C54_single_service"
   ],
   "note": "Also covers services made by SingleServiceFromGRPCServiceDesc"
  },
  {
   "property": "C55",
   "status": "proved",
   "theorems": [
    "C55_first",
    "C55_cancelled",
    "C55_stale"
   ],
   "note": "FINDING; instance C55_example"
  },
  {
   "property": "C56",
   "status": "proved",
   "theorems": [
    "C56_own_response",
    "C56_timeout",
    "C56_once",
    "C56_completes",
    "C56_no_crash"
   ],
   "note": "LTS of client, stream goroutines and cleanup; every reachable state. Instances C56_example, C66_crash"
  },
  {
   "property": "C57",
   "status": "proved",
   "theorems": [
    "C57_dropped"
   ],
   "note": "FINDING; instance C57_example. A failed send of the first call is the only thing that can still end it"
  },
  {
   "property": "C58",
   "status": "proved",
   "theorems": [
    "C58_by_age",
    "C58_no_others",
    "C58_not_exposed",
    "C58_relay_tasks",
    "C58_robust_requests",
    "C58_pending_call_fails",
    "C58_direct_calls"
   ],
   "note": "FINDING; instance C58_example"
  },
  {
   "property": "C59",
   "status": "proved",
   "theorems": [
    "C59_unknown_method",
    "C59_refused_parcel",
    "C59_honest_call",
    "C59_run_is_safe"
   ],
   "note": "FINDING"
  },
  {
   "property": "C60",
   "status": "proved",
   "theorems": [
    "C60_same_pairs",
    "C60_files_distinct",
    "C60_partial_write_is_fatal"
   ],
   "note": "JSON codec as parameter with round-trip and no-strict-prefix-decodes laws. FINDING: an interrupted write makes all later calls fail."
  },
  {
   "property": "C61",
   "status": "proved",
   "theorems": [
    "C61_delivers_exactly",
    "C61_every_layer",
    "C61_no_crash",
    "C61_generated"
   ],
   "note": "for clients that follow the protocol (a client that does not can crash a server: C11); executed instance C82_example"
  },
  {
   "property": "C62",
   "status": "proved",
   "theorems": [
    "C62_shared_object_refuted"
   ],
   "note": "FINDING."
  },
  {
   "property": "C63",
   "status": "proved",
   "theorems": [
    "C63_bounded",
    "C63_no_deadlock"
   ],
   "note": "Workers are assumed to keep running; Stop and the bounded queue are in C89."
  },
  {
   "property": "C64",
   "status": "proved",
   "theorems": [
    "C64_mixed"
   ],
   "note": "FINDING; concrete instance C64_garbage"
  },
  {
   "property": "C65",
   "status": "proved",
   "theorems": [
    "C65_iff",
    "C65_cleanup_refuses"
   ],
   "note": "FINDING; instance C65_example"
  },
  {
   "property": "C66",
   "status": "proved",
   "theorems": [
    "C66_crash",
    "C66_only_after"
   ],
   "note": "FINDING"
  },
  {
   "property": "C67",
   "status": "proved",
   "theorems": [
    "C67_receiver",
    "C67_cleaner",
    "C67_response_blocks",
    "C67_expiry_blocks",
    "C67_stays"
   ],
   "note": "FINDING; instance C67_example"
  },
  {
   "property": "C68",
   "status": "proved",
   "theorems": [
    "C68_runs",
    "C68_stream",
    "C68_honest"
   ],
   "note": "FINDING: one bad request ends the stream. Handler panics and nil notes in responses not modelled"
  },
  {
   "property": "C69",
   "status": "proved",
   "theorems": [
    "C69_any_request",
    "C69_claimed_caller",
    "C69_from_relayed_parcel",
    "C69_any_reply"
   ],
   "note": "FINDING; instance C69_example"
  },
  {
   "property": "C70",
   "status": "proved",
   "theorems": [
    "C70_in_order",
    "C70_fifo",
    "C70_no_crash",
    "C70_bounded",
    "C70_complete"
   ],
   "note": "instance C70_example"
  },
  {
   "property": "C71",
   "status": "proved",
   "theorems": [
    "C71_at_most_100",
    "C71_quota",
    "C71_witness"
   ],
   "note": "FINDING; C71_witness is a run in which the 101st call is stuck"
  },
  {
   "property": "C72",
   "status": "proved",
   "theorems": [
    "C72_crash",
    "C72_no_call_finishes"
   ],
   "note": "FINDING; instance C72_example"
  },
  {
   "property": "C73",
   "status": "proved",
   "theorems": [
    "C73_answers",
    "C73_order",
    "C73_arrives",
    "C73_settles"
   ],
   "note": "instance C73_run"
  },
  {
   "property": "C74",
   "status": "proved",
   "theorems": [
    "C74_early",
    "C74_overwritten"
   ],
   "note": "FINDING; runs C74_early_run, C74_overwritten_run"
  },
  {
   "property": "C75",
   "status": "proved",
   "theorems": [
    "C75_stuck",
    "C75_reached"
   ],
   "note": "FINDING; run C75_run from the initial state"
  },
  {
   "property": "C76",
   "status": "proved",
   "theorems": [
    "C76_client",
    "C76_relay",
    "C76_task",
    "C76_server"
   ],
   "note": "FINDING; instance C76_example"
  },
  {
   "property": "C77",
   "status": "proved",
   "theorems": [
    "C77_connected",
    "C77_failure_looks_like_success",
    "C77_error",
    "C77_close_twice",
    "C77_close_after",
    "C77_nil_connection"
   ],
   "note": "FINDING; instance C77_example"
  },
  {
   "property": "C78",
   "status": "proved",
   "theorems": [
    "C78_open",
    "C78_crash",
    "C78_safe"
   ],
   "note": "FINDING; run C78_example"
  },
  {
   "property": "C79",
   "status": "proved",
   "theorems": [
    "C79_fifo",
    "C79_ended",
    "C79_client_stops",
    "C79_reached"
   ],
   "note": "FINDING; run C79_example"
  },
  {
   "property": "C80",
   "status": "proved",
   "theorems": [
    "C80_once",
    "C80_stuck",
    "C80_dropped"
   ],
   "note": "FINDING; runs C80_example (no cleanup), C80_race (relay 2 blocked for ever), C80_dropped_example"
  },
  {
   "property": "C81",
   "status": "proved",
   "theorems": [
    "C81_at_most_100",
    "C81_blocked",
    "C81_reached"
   ],
   "note": "FINDING; C81_reached is a run of 102 calls, the last of which blocks for ever"
  },
  {
   "property": "C82",
   "status": "proved",
   "theorems": [
    "C82_bounded",
    "C82_settles",
    "C82_completes"
   ],
   "note": "executed instance C82_example"
  },
  {
   "property": "C83",
   "status": "proved",
   "theorems": [
    "C83_mac_changed",
    "C83_same_mac",
    "C26_authenticated"
   ],
   "note": "C83_same_mac: or the two MACs computed are a collision; hypotheses instantiated by C83_example"
  },
  {
   "property": "C84",
   "status": "proved",
   "theorems": [
    "C84_onions_exist",
    "C84_delivers_exactly",
    "C84_completes",
    "C84_systems_exist"
   ],
   "note": "libraries assumed: a bilinear pairing, round-tripping fixed-size codecs, a 32-byte MAC (instance: C84_example over the BLS12-381 order)"
  },
  {
   "property": "C85",
   "status": "proved",
   "theorems": [
    "C85_inputs",
    "C85_refused",
    "C85_opens",
    "C85_collects_exactly",
    "C85_collects",
    "C85_possible",
    "C85_generator"
   ],
   "note": "FINDING (C85_refused): a chain without onions; complete instance C85_example"
  },
  {
   "property": "C86",
   "status": "proved",
   "theorems": [
    "C86_fresh_draws",
    "C86_sizes",
    "C86_same_keys",
    "C86_outsider_decrypts",
    "C86_outsider_opens",
    "C86_foreign_server"
   ],
   "note": "FINDING; instances C86_example, C86_outsider_example; the SHAKE128 reader and Scalar.Random are arbitrary deterministic functions"
  },
  {
   "property": "C87",
   "status": "proved",
   "theorems": [
    "C87_still_own",
    "C87_stranded",
    "C87_async_blocks",
    "C87_close",
    "C87_never_recovers",
    "C87_break"
   ],
   "note": "FINDING; runs C87_example"
  },
  {
   "property": "C88",
   "status": "proved",
   "theorems": [
    "C88_exact",
    "C88_no_crash",
    "C88_completes",
    "C88_can_finish",
    "C88_stuck",
    "C88_replaced",
    "C88_stall"
   ],
   "note": "FINDING (C88_stall: an executed run of two honest rounds, one of which stops for good); instance C88_example"
  },
  {
   "property": "C89",
   "status": "proved",
   "theorems": [
    "C89_same_answers",
    "C89_accepted",
    "C89_bounded",
    "C89_no_deadlock",
    "C89_capacity",
    "C89_stop_drains",
    "C89_later_calls",
    "C89_strands"
   ],
   "note": "FINDING (C89_strands, C89_later_calls); run C89_example, C89_no_workers"
  },
  {
   "property": "C90",
   "status": "proved",
   "theorems": [
    "C90_same_answers",
    "C90_roundtrip",
    "C90_too_few",
    "C90_bounded",
    "C90_no_deadlock",
    "C90_completes",
    "C90_workers_never_block",
    "C90_stop_releases",
    "C90_crash_only"
   ],
   "note": "run C90_example; the erasure code is a parameter with rs_laws, instance xor_laws"
  },
  {
   "property": "C91",
   "status": "proved",
   "theorems": [
    "C91_encode_result",
    "C91_encode_keeps_argument",
    "C91_encode_frame",
    "C91_encode_overwrites",
    "C91_adjacent",
    "C91_adjacent_capped",
    "C91_reconstruct_fills"
   ],
   "note": "FINDING (C91_encode_overwrites, C91_adjacent); instances C91_example, C91_example_reconstruct"
  },
  {
   "property": "C92",
   "status": "proved",
   "theorems": [
    "C92_dial_ok",
    "C92_never_refused",
    "C92_before_dial",
    "C92_dial_crashes",
    "C92_dial_error",
    "C92_dial_empty",
    "C92_close",
    "C92_close_ok",
    "C92_close_twice",
    "C92_redial_leaks",
    "C92_close_leaks"
   ],
   "note": "FINDING; instance C92_example"
  },
  {
   "property": "C93",
   "status": "proved",
   "theorems": [
    "C93_sender",
    "C93_receiver",
    "C93_sender_binds",
    "C93_receiver_binds",
    "C93_both_signed",
    "C93_both_signed_batch",
    "C93_roles",
    "C93_sender_as_receiver"
   ],
   "note": "FINDING (C93_both_signed, C93_roles, C93_sender_as_receiver); instances C93_example, C93_injective"
  },
  {
   "property": "C94",
   "status": "proved",
   "theorems": [
    "C94_bounded",
    "C94_outcome",
    "C94_hangs",
    "C94_doomed",
    "C94_can_return",
    "C94_returns",
    "C94_quiet",
    "C94_closed_crashes",
    "C94_nothing_delivered",
    "C94_after_return",
    "C94_handler_after_return",
    "C94_late_handler_example",
    "C94_late_crash_example",
    "C94_hang_example"
   ],
   "note": "FINDING (C94_late_handler_example, C94_late_crash_example, C94_hang_example); instances C94_returns_example, C94_quiet_example, C94_doomed_example, C94_closed_example"
  },
  {
   "property": "C95",
   "status": "proved",
   "theorems": [
    "C95_bounded",
    "C95_returns",
    "C95_reads",
    "C95_lost",
    "C95_loses",
    "C95_iff",
    "C95_stalled",
    "C95_collector",
    "C95_reply",
    "C95_hang_example",
    "C95_returns_example"
   ],
   "note": "FINDING (C95_hang_example: nothing fails and the call never returns); the cleanups, cancellation and broken streams are not in this network (C58, C67, C72, C79, C80); instances C95_returns_example, C95_reply_example"
  },
  {
   "property": "C96",
   "status": "proved",
   "theorems": [
    "C96_same_dispatch",
    "C96_generated",
    "C96_services",
    "C96_async_reads",
    "C96_async_ends"
   ],
   "note": "FINDING (interceptors never run: C96_generated); grpc.Server (register, handleStream) is described in the model, not verified; instance C96_example"
  },
  {
   "property": "C97",
   "status": "proved",
   "theorems": [
    "C97_once",
    "C97_own",
    "C97_send_error",
    "C97_bounded",
    "C97_returns",
    "C97_jam",
    "C97_jam_reached",
    "C97_late_run",
    "C97_other_answer"
   ],
   "note": "FINDING (C97_jam with C97_jam_reached, C97_late_run, C97_other_answer); the contents of requests and responses are C68, a breaking stream C87; instances C97_returns_example, C97_send_error_example"
  },
  {
   "property": "C98",
   "status": "proved",
   "theorems": [
    "C98_every_relay",
    "C98_host",
    "C98_source",
    "C98_fifo",
    "C98_refused",
    "C98_never_blocks",
    "C98_short",
    "C98_exit_only",
    "C98_exit_final",
    "C98_complete",
    "C98_room",
    "C98_unverified_published",
    "C98_close_loses",
    "C98_full_drops"
   ],
   "note": "C98_ex: a run of two clients and two relays. Findings: C98_unverified_published, C98_close_loses, C98_full_drops."
  },
  {
   "property": "C99",
   "status": "proved",
   "theorems": [
    "C99_text",
    "C99_parse",
    "C99_round_trip",
    "C99_injective",
    "C99_accepts",
    "C99_sixteen",
    "C99_number",
    "C99_zero",
    "C99_keys"
   ],
   "note": "C99_ex: concrete texts. Finding: C99_sixteen. Strings with other characters are not claimed about."
  },
  {
   "property": "C100",
   "status": "proved",
   "theorems": [
    "C100_split",
    "C100_written",
    "C100_only_broken",
    "C100_stays",
    "C100_closed",
    "C100_poison",
    "C100_impostor",
    "C100_restart"
   ],
   "note": "FINDING (C100_impostor, C100_poison); C100_restart is a concrete run of a relay that restarts"
  },
  {
   "property": "C101",
   "status": "proved",
   "theorems": [
    "C101_node_keys_fixed",
    "C101_new_node_total"
   ],
   "note": "instance C101_example; one goroutine (the cache under concurrency is C25)"
  },
  {
   "property": "C102",
   "status": "proved",
   "theorems": [
    "C102_public_share",
    "C102_index_zero",
    "C102_set_bytes",
    "C102_stale_after_set_bytes",
    "C102_stale_share"
   ],
   "note": "FINDING (C102_stale_after_set_bytes, C102_stale_share); instance C102_example"
  },
  {
   "property": "C103",
   "status": "proved",
   "theorems": [
    "C103_untouched",
    "C103_copy",
    "C103_copy_independent",
    "C103_fresh_answers",
    "C103_equal"
   ],
   "note": "instance C103_example; nil receivers of Equal are not in the model"
  },
  {
   "property": "C104",
   "status": "proved",
   "theorems": [
    "C104_share_by_reference"
   ],
   "note": "one goroutine; instance C104_example"
  },
  {
   "property": "C105",
   "status": "proved",
   "theorems": [
    "C105_secrecy",
    "C105_count",
    "C105_threshold",
    "C105_public"
   ],
   "note": "Perfect secrecy of d shares, by an explicit bijection between the polynomials behind two secrets; the BLS12-381 scalar field is an instance (C105_example)."
  },
  {
   "property": "C106",
   "status": "proved",
   "theorems": [
    "C106_unlinkable",
    "C106_draws",
    "C106_every_order",
    "C106_position"
   ],
   "note": "Unlinkability by one honest mix in a chain of arbitrary mixes, by bijections between draw lists."
  },
  {
   "property": "C107",
   "status": "proved",
   "theorems": [
    "C107_binding",
    "C107_wrong_share",
    "C107_wrong_mpk"
   ],
   "note": "Binding of a verified sharing and the effect of unverified shares and master keys; VerifyShare is never called. C107_settings/C107_example show instances."
  },
  {
   "property": "C108",
   "status": "proved",
   "theorems": [
    "C108_bias",
    "C108_ratio"
   ],
   "note": "Counts of random words behind each order; closes the gap between C106 (uniform draws) and the code (words modulo m)."
  },
  {
   "property": "C109",
   "status": "proved",
   "theorems": [
    "C109_build",
    "C109_verify",
    "C109_sign",
    "C109_worker",
    "C109_unencodable"
   ],
   "note": "Refinement of the buffer-free functions of Model/Merkle.v by functions that thread the buffer; instance C109_example."
  },
  {
   "property": "C110",
   "status": "proved",
   "theorems": [
    "C110_generated",
    "C110_peel",
    "C110_mix",
    "C110_traced"
   ],
   "note": "FINDING (C110_traced): lengths survive mixing. Instance C110_example; runs: those of C08 and C84."
  },
  {
   "property": "C111",
   "status": "proved",
   "theorems": [
    "C111_only_key",
    "C111_other_server",
    "C111_other_round",
    "C111_rejected_crashes"
   ],
   "note": "FINDING (C111_rejected_crashes): an onion of another round crashes the forwarding server. Instances C111_example, C111_crash_example; the deployment hypotheses are instantiated in C84."
  },
  {
   "property": "C112",
   "status": "proved",
   "theorems": [
    "C112_mix",
    "C112_delivered_as_often"
   ],
   "note": "FINDING: replayed onions are delivered again. Instance C112_example (one onion handed twice); deployment runs: those of C84."
  },
  {
   "property": "C113",
   "status": "proved",
   "theorems": [
    "C113_all_sent",
    "C113_nothing_lost",
    "C113_one_loss_stops_chain",
    "C113_one_missing_stops_chain",
    "C113_other_chains"
   ],
   "note": "FINDING: no retry and no partial answer. Executed instance C113_example: the call for one chain is lost, the other chain answers."
  },
  {
   "property": "C114",
   "status": "proved",
   "theorems": [
    "C114_stable",
    "C114_certificate",
    "C114_refused_note",
    "C114_refused_parcel",
    "C114_direct",
    "C114_empty_id",
    "C114_sign_after_transport",
    "C114_robust",
    "C114_response"
   ],
   "note": "protobuf and binc are modelled by their documented treatment of nil, empty and strings (the libraries are not in /repo); the positive theorems hold for every encoding function, the findings for injective ones"
  },
  {
   "property": "C115",
   "status": "proved",
   "theorems": [
    "C115_key",
    "C115_open_alike",
    "C115_survivors",
    "C115_read_everything",
    "C115_too_few"
   ],
   "note": "FINDING: the recovery of the title is possible but not implemented (UpdateMixes panics); a group of degree+2 servers reads everything. Instance C115_example: five servers, degree 1, three of them read a chain on which only one of them mixes."
  },
  {
   "property": "C116",
   "status": "proved",
   "theorems": [
    "C116_exact",
    "C116_no_crash",
    "C116_completes",
    "C116_can_finish"
   ],
   "note": "C84 for one round and C88 for arbitrary decryption, joined. Instance C116_example: two rounds open at once in a concrete deployment, each finishes and delivers its own messages. What one round can do to another is C88 (C88_stall)."
  },
  {
   "property": "C117",
   "status": "proved",
   "theorems": [
    "C117_accepted",
    "C117_first_parcel",
    "C117_relay_chooses"
   ],
   "note": "FINDING: nothing ties the parcels of a call to one signer, so below the tolerated number of faults a relay chooses the method. Instance C117_example, executed from the parcels to the reply the client returns."
  },
  {
   "property": "C118",
   "status": "proved",
   "theorems": [
    "C118_changed_byte"
   ],
   "note": "FINDING: the pieces are not authenticated against each other. Instance C118_example, executed likewise. The counterpart for responses is C53."
  },
  {
   "property": "C119",
   "status": "proved",
   "theorems": [
    "C119_exact",
    "C119_agrees",
    "C119_safe",
    "C119_cache",
    "C119_no_key",
    "C119_first",
    "C119_through_relay",
    "C119_relay",
    "C119_direct",
    "C119_client"
   ],
   "note": "FINDING: one request made without a key stops a server, also through an honest relay; Attest is a public RPC that panics. That ed25519.Verify panics on keys of another length is documented by Go and modelled as such. Instance C119_example: no signature is valid at all, and the request of a configured caller stops the server."
  },
  {
   "property": "C120",
   "status": "proved",
   "theorems": [
    "C120_each_parcel_once",
    "C120_bound",
    "C120_at_most_once",
    "C120_replay",
    "C120_accepted_again",
    "C120_direct"
   ],
   "note": "FINDING (the replay half). C49 has the exact groups when nothing expires; here expiry is arbitrary. Instances C120_example (one parcel expires, the call runs once, and once more when it is replayed) and C120_direct_example."
  },
  {
   "property": "C121",
   "status": "proved",
   "theorems": [
    "C121_utf8_is_safe",
    "C121_never_sent",
    "C121_crash",
    "C121_direct",
    "C121_direct_arrives"
   ],
   "note": "FINDING. That protobuf refuses to encode strings that are not UTF-8, and the behaviour of grpc status, are described in Model/Status.v, not verified. Instances C121_example (one relay, then a good call) and C121_direct_example."
  },
  {
   "property": "C122",
   "status": "proved",
   "theorems": [
    "C122_accepted_iff",
    "C122_unsigned",
    "C122_otherwise",
    "C122_crash",
    "C122_handler",
    "C122_error_arrives",
    "C122_direct"
   ],
   "note": "FINDING. C122_otherwise ties the verdicts with statuses to those of Model/Robust.v, which the properties on signed responses use. That status.Err of code OK is nil is described in Model/Status.v. Instances C122_crash_example, C122_direct_example."
  },
  {
   "property": "C123",
   "status": "proved",
   "theorems": [
    "C123_answers",
    "C123_utf8_is_safe",
    "C123_not_sent",
    "C123_finishes_streams",
    "C123_afterwards"
   ],
   "note": "FINDING. That a message that cannot be encoded finishes a gRPC client stream (later sends: io.EOF) is described in Model/RelayUp.v, not verified. Executed instance C123_example: two relays, a good call, the bad call, a call that only times out."
  },
  {
   "property": "C124",
   "status": "proved",
   "theorems": [
    "C124_utf8_is_safe",
    "C124_not_run",
    "C124_afterwards",
    "C124_returns_error"
   ],
   "note": "FINDING. As C123 for direct calls; that a message that cannot be encoded finishes a gRPC client stream is described in Model/DirectUp.v, not verified. Executed instance C124_example."
  },
  {
   "property": "C125",
   "status": "proved",
   "theorems": [
    "C125_answers",
    "C125_taken_once",
    "C125_one_creator",
    "C125_same_value",
    "C125_range_once",
    "C125_range_value",
    "C125_range_all",
    "C125_untyped",
    "C125_nil_interface"
   ],
   "note": "FINDING (C125_untyped, C125_nil_interface). The behaviour of Go's sync.Map is described in Model/SyncMap.v, not verified. Executed instance C125_example."
  },
  {
   "property": "C126",
   "status": "proved",
   "theorems": [
    "C126_sweep",
    "C126_by_age",
    "C126_drops",
    "C126_only_replaced",
    "C126_young_lost"
   ],
   "note": "FINDING (C126_young_lost). C58 describes the same function with nobody else on the map. Executed instance C126_example."
  },
  {
   "property": "C127",
   "status": "proved",
   "theorems": [
    "C127_uint64",
    "C127_uint63",
    "C127_two_answers",
    "C127_bytes",
    "C127_failure"
   ],
   "note": "The random source is an arbitrary answer; the seeded generator of the tests (MakePRNG) is not modelled. Instance C127_example."
  }
 ]
}