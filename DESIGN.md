# Formal model of resmix in Rocq (Coq 8.16.1)

The model lives in `rocq/theories/`.  Layout:

| directory | contents |
|---|---|
| `Base/` | bytes, big/little endian words, outcomes (`Ok`/`Err`/`Panic`), list lemmas, decimal printing |
| `Model/` | the code, function by function; each definition cites file and lines of /repo |
| `Spec/` | small specifications in the vocabulary of the English properties, for the claims whose statement needs more than the model's own types; they import `Base` and the model's data types, never its proofs |
| `Proofs/` | lemmas, invariants, refinement proofs |
| `Properties/` | the property theorems, an `Example` per theorem (or group) showing that its hypotheses are met by a concrete case, each theorem followed by `Print Assumptions` |

`properties.jsonl` is the list of English properties, `MANIFEST.json` maps each to its theorems,
`seeded/LOG.jsonl` records the wrong programs the theorems were tested against.

## Conventions

* Go `string` = Coq `string`; `[]byte` = `list Byte.byte`; `int` is `Z` or `nat` (a wrap is written out where
  the property is about it: uint32 conversions in headers/indices, int(uint64) of workloads);
  errors are values, `nil` an explicit case, a Go panic is an explicit outcome (`Panic`) or a sticky flag of a transition system.
* Go map iteration order and `sort.Slice` (unstable) are modelled relationally: theorems hold for every
  permutation of the entries / for every sorted permutation.
* Goroutines, channels, mutexes, wait groups: labelled transition systems whose steps are the code's
  synchronisation points; theorems quantify over all reachable states / all schedules.  A blocked operation is the
  absence of a step; "blocks for ever" is a theorem about all continuations.
* External algorithms are section variables (so: premises of the theorem) with their laws recorded: hash functions
  (no law at all, or the explicit collision is the alternative conclusion), block cipher (length only: CFB is proved for
  any block function), the BLS pairing (a bilinear map of modules over the scalar field), signatures
  (`verify pk m (sign sk m)`), Reed-Solomon's `Encode/Reconstruct` (any k of n shards determine the rest), the
  protobuf/binc/JSON codecs (round trip).  Each has a concrete instance in an `Example`, so that no premise is vacuous.
* Properties marked FINDING in the manifest are proved *negative* facts: the code really behaves that way, on every
  input of the stated shape; the theorem gives the exact condition and an executed instance.

## Per property

| id | property | modelled code | proof method | status and theorems |
|---|---|---|---|---|

| C01 | Cascade topology has the documented shape | Model/Topology.v (createLayer, CreateCascadeTopology, SetPredecessors/Successors, GetMix) | closed forms of the loops; injectivity of decimal printing for the names; induction on layers; arithmetic modulo the number of servers | proved: `C01_cascade_shape`, `C01_negative_layers` |
| C02 | Mix names identify mixes | Model/Topology.v (createLayer, CreateCascadeTopology, SetPredecessors/Successors, GetMix) | closed forms of the loops; injectivity of decimal printing for the names; induction on layers; arithmetic modulo the number of servers | proved: `C02_names_identify_mixes` |
| C03 | Following successors from the first layer traverses one whole chain and stops | Model/Topology.v (createLayer, CreateCascadeTopology, SetPredecessors/Successors, GetMix) | closed forms of the loops; injectivity of decimal printing for the names; induction on layers; arithmetic modulo the number of servers | proved: `C03_chain_traversal` |
| C04 | Every server works exactly once per layer, and its sorted mix list is its work in layer order | Model/Topology.v (setMixNames, GetMixesSortedByLayer as any sorted permutation of any map enumeration) | uniqueness of a strictly sorted permutation | proved: `C04_server_schedule` |
| C05 | NewRound propagates each first-layer workload along its whole chain, or refuses | Model/Rounds.v NewRound: the walk along successors and int(uint64) conversion | induction on the layer chain; the crash is characterised by an iff | proved: `C05_propagation`, `C05_new_round`, `C05_new_round_total`, `C05_crash_iff` |
| C06 | Round lifecycle | Model/Rounds.v: the round table with its mixer objects, as a transition system of handlers and mixer steps | invariants over every interleaving; refinement to an abstract table of open rounds (Spec/RoundsSpec.v) | proved: `C06_answers`, `C06_get_not_found`, `C06_end_needs_open`, `C06_end_count`, `C06_never_closed_twice`, `C06_isolation` |
| C07 | Reopening an open round discards what it had received | Model/Rounds.v: the round table with its mixer objects, as a transition system of handlers and mixer steps | invariants over every interleaving; refinement to an abstract table of open rounds (Spec/RoundsSpec.v) | proved: `C07_reopen_discards`, `C07_replaced_object_leaks` |
| C08 | A mix outputs exactly the decryptions of the onions it was given | Model/Mixer.v: transition system with lock holder, bounded task queue, worker pool, shuffles, output channel, sticky crash flag | inductive invariants (Proofs/MixerInv), decreasing measure (Proofs/MixerLive), executable scheduler for witness runs (Proofs/MixerExec) | proved: `C08_outputs_are_decryptions`, `C08_server` |
| C09 | No mix output is visible before the whole workload was processed and shuffled | Model/Mixer.v: transition system with lock holder, bounded task queue, worker pool, shuffles, output channel, sticky crash flag | inductive invariants (Proofs/MixerInv), decreasing measure (Proofs/MixerLive), executable scheduler for witness runs (Proofs/MixerExec) | proved: `C09_visible_iff_shuffled`, `C09_stable` |
| C10 | A correctly fed mix never crashes and always completes | Model/Mixer.v: transition system with lock holder, bounded task queue, worker pool, shuffles, output channel, sticky crash flag | inductive invariants (Proofs/MixerInv), decreasing measure (Proofs/MixerLive), executable scheduler for witness runs (Proofs/MixerExec) | proved: `C10_no_crash`, `C10_terminates`, `C10_completes`, `C10_final_state_reachable` |
| C11 | Over-delivery or an unknown receiver crashes the server instead of being rejected | Model/Mixer.v: transition system with lock holder, bounded task queue, worker pool, shuffles, output channel, sticky crash flag | inductive invariants (Proofs/MixerInv), decreasing measure (Proofs/MixerLive), executable scheduler for witness runs (Proofs/MixerExec) | proved: `C11_crash_inevitable` |
| C12 | A completed mix forwards its output to the next layer exactly once | Model/Mixer.v: transition system with lock holder, bounded task queue, worker pool, shuffles, output channel, sticky crash flag | inductive invariants (Proofs/MixerInv), decreasing measure (Proofs/MixerLive), executable scheduler for witness runs (Proofs/MixerExec) | proved: `C12_emissions`, `C12_emitted_exactly`, `C12_late_empty_batch_refuted` |
| C13 | A chain without messages never completes | Model/Mixer.v: transition system with lock holder, bounded task queue, worker pool, shuffles, output channel, sticky crash flag | inductive invariants (Proofs/MixerInv), decreasing measure (Proofs/MixerLive), executable scheduler for witness runs (Proofs/MixerExec) | proved: `C13_no_batch_no_output`, `C13_empty_output_not_forwarded` |
| C14 | Shuffling only permutes | Model/Shuffle.v: randInt, permutation and the swap loop over an arbitrary random state machine | permutation invariant; bijection draw sequences / permutations; counting residues modulo 2^64 | proved: `C14_shuffle_permutes`, `C14_oblivious` |
| C15 | Every ordering is reachable, by exactly one sequence of draws | Model/Shuffle.v: randInt, permutation and the swap loop over an arbitrary random state machine | permutation invariant; bijection draw sequences / permutations; counting residues modulo 2^64 | proved: `C15_every_ordering_exactly_once`, `C15_draw_bias` |
| C16 | Onion routing header round-trips | Model/Onion.v: header codec, both grouping functions, sender worker and request builder | codec arithmetic; fold partition lemmas for every iteration order | proved: `C16_header_roundtrip`, `C16_panics_exactly` |
| C17 | Grouping by mix or host partitions the onions | Model/Onion.v: header codec, both grouping functions, sender worker and request builder | codec arithmetic; fold partition lemmas for every iteration order | proved: `C17_grouping_partitions` |
| C18 | A generated onion peels layer by layer to its message | Model/Messages.v, Model/ChainCount.v: generateOnion, calculateChain (binary64 via Flocq), generateOnions as a transition system, cache file with crash points | induction on layers; floating-point error analysis; LTS invariants; prefix-of-file crash model | proved: `C18_onion_peels`, `C18_generateOnion` |
| C19 | Chain choice is in range, deterministic and of the documented length | Model/Messages.v, Model/ChainCount.v: generateOnion, calculateChain (binary64 via Flocq), generateOnions as a transition system, cache file with crash points | induction on layers; floating-point error analysis; LTS invariants; prefix-of-file crash model | proved: `C19_chains`, `C19_boundaries` |
| C20 | Work is split over CPUs without losing clients | Model/Messages.v, Model/ChainCount.v: generateOnion, calculateChain (binary64 via Flocq), generateOnions as a transition system, cache file with crash points | induction on layers; floating-point error analysis; LTS invariants; prefix-of-file crash model | proved: `C20_quotas`, `C20_collects_all`, `C20_negative` |
| C21 | Round identities: distinct for equal-length host names, ambiguous otherwise | Model/Rounds.v computeId | decimal printing lemmas; explicit ambiguous pair | proved: `C21_equal_length_hosts`, `C21_same_host`, `C21_collision_shape`, `C21_ambiguous_refuted` |
| C22 | The request sent to each next host contains exactly that host's onions, grouped per mix | Model/Onion.v: header codec, both grouping functions, sender worker and request builder | codec arithmetic; fold partition lemmas for every iteration order | proved: `C22_requests_carry_output`, `C22_sender_crashes_iff`, `C22_uuid_distinct`, `C22_uuid_ignores_round` |
| C23 | Share values are evaluations of the polynomial | Model/Tibe.v, Model/Cfb.v over an abstract field / modules / bilinear pairing (mathcomp) | Lagrange interpolation; the loops refined to ring sums; CFB mode proved for every block function; instance over the BLS12-381 group order (Proofs/FpSetting) | proved: `C23_eval`, `C23_secret`, `C23_shares` |
| C24 | Any sufficiently large set of points reconstructs the secret | Model/Tibe.v, Model/Cfb.v over an abstract field / modules / bilinear pairing (mathcomp) | Lagrange interpolation; the loops refined to ring sums; CFB mode proved for every block function; instance over the BLS12-381 group order (Proofs/FpSetting) | proved: `C24_reconstruct` |
| C25 | Public shares match private shares under any call history | Model/Memo.v: the mutex-protected cache of public shares as a transition system | cache invariant over every history | proved: `C25_public_share`, `C25_no_deadlock`, `C25_verify_share`, `C25_empty_panics` |
| C26 | Encrypting to an identity and decrypting with its key returns the message | Model/Tibe.v, Model/Cfb.v over an abstract field / modules / bilinear pairing (mathcomp) | Lagrange interpolation; the loops refined to ring sums; CFB mode proved for every block function; instance over the BLS12-381 group order (Proofs/FpSetting) | proved: `C26_roundtrip`, `C26_NewNode`, `C26_authenticated` |
| C27 | Decrypting consumes the cipher | Model/CipherMem.v: slices as windows of a byte heap | heap framing lemmas | proved: `C27_in_place`, `C27_failure_keeps`, `C27_second_decrypt_fails`, `C27_result_is_a_view`, `C27_copy_protects`, `C27_buffer_overwritten` |
| C28 | Enough valid votes for one identity reconstruct exactly that identity's key | Model/Tibe.v, Model/Cfb.v over an abstract field / modules / bilinear pairing (mathcomp) | Lagrange interpolation; the loops refined to ring sums; CFB mode proved for every block function; instance over the BLS12-381 group order (Proofs/FpSetting) | proved: `C28_reconstruct` |
| C29 | ReconstructDecrypter's threshold is degree+2, one more than necessary | Model/Tibe.v, Model/Cfb.v over an abstract field / modules / bilinear pairing (mathcomp) | Lagrange interpolation; the loops refined to ring sums; CFB mode proved for every block function; instance over the BLS12-381 group order (Proofs/FpSetting) | proved: `C29_too_few`, `C29_determined` |
| C30 | Invalid votes and duplicate votes are rejected | Model/Tibe.v, Model/Cfb.v over an abstract field / modules / bilinear pairing (mathcomp) | Lagrange interpolation; the loops refined to ring sums; CFB mode proved for every block function; instance over the BLS12-381 group order (Proofs/FpSetting) | proved: `C30_accept_iff`, `C30_unknown_node`, `C30_validate`, `C30_empty_polynomial_panics` |
| C31 | Votes for different identities are combined without complaint | Model/Tibe.v, Model/Cfb.v over an abstract field / modules / bilinear pairing (mathcomp) | Lagrange interpolation; the loops refined to ring sums; CFB mode proved for every block function; instance over the BLS12-381 group order (Proofs/FpSetting) | proved: `C31_value`, `C31_mixed_ids_refuted` |
| C32 | Threshold publishing: what one player hides any t honest votes reveal | Model/Tibe.v, Model/Cfb.v over an abstract field / modules / bilinear pairing (mathcomp) | Lagrange interpolation; the loops refined to ring sums; CFB mode proved for every block function; instance over the BLS12-381 group order (Proofs/FpSetting) | proved: `C32_shared_key`, `C32_generated_keys`, `C32_hide_reveal`, `C32_vote_correct`, `C32_verify`, `C32_verify_panics` |
| C33 | Reveal with a wrong vote gives garbage, not an error | Model/Tibe.v, Model/Cfb.v over an abstract field / modules / bilinear pairing (mathcomp) | Lagrange interpolation; the loops refined to ring sums; CFB mode proved for every block function; instance over the BLS12-381 group order (Proofs/FpSetting) | proved: `C33_reveal_never_fails`, `C33_wrong_vote`, `C33_refuted` |
| C34 | NewPublisher with one public key too few silently uses the identity as shared key | Model/Tibe.v, Model/Cfb.v over an abstract field / modules / bilinear pairing (mathcomp) | Lagrange interpolation; the loops refined to ring sums; CFB mode proved for every block function; instance over the BLS12-381 group order (Proofs/FpSetting) | proved: `C34_one_short`, `C34_public_decryption`, `C34_fails`, `C34_no_keys` |
| C35 | Key material codecs round-trip | Model/TibeCodec.v | codec arithmetic for every field/group codec with the library laws | proved: `C35_poly`, `C35_exponent_poly`, `C35_share`, `C35_public_key`, `C35_index_range`, `C35_master_key`, `C35_cipher`, `C35_poly_length`, `C35_exponent_length`, `C35_short_rejected`, `C35_short_cipher`, `C35_short_cipher_panics`, `C35_poly_clobbered`, `C35_exponent_kept`, `C35_exponent_accepts`, `C35_poly_accepts`, `C35_share_accepts`, `C35_public_key_accepts`, `C35_cipher_accepts` |
| C36 | Generated configurations work together | Model/KeyConfig.v: createConfigs, DKGSetup, CreateTIBENode, CreateTIBEPublisher | composition of the C23-C34 theorems with the generated keys | proved: `C36_node`, `C36_encrypt`, `C36_votes`, `C36_one_vote_short`, `C36_publisher`, `C36_hide_reveal`, `C36_too_few_servers` |
| C37 | Merkle proofs of genuine elements verify | Model/Merkle.v: Build, Prove, Verify, partial layers; merkleSign | induction on tree height; soundness by explicit collision extractor naming the strings hashed | proved: `C37_complete`, `C37_out_of_range` |
| C38 | A verified element is the committed one, up to hash collisions | Model/Merkle.v: Build, Prove, Verify, partial layers; merkleSign | induction on tree height; soundness by explicit collision extractor naming the strings hashed | proved: `C38_sound`, `C38_sound_many`, `C38_sound_no_clash`, `C38_no_elements` |
| C39 | Leaves and inner nodes are not domain separated | Model/Merkle.v: Build, Prove, Verify, partial layers; merkleSign | induction on tree height; soundness by explicit collision extractor naming the strings hashed | proved: `C39_inner_node_as_leaf`, `C39_two_elements` |
| C40 | merkleSign gives every item a certificate that verifies | Model/Merkle.v: Build, Prove, Verify, partial layers; merkleSign | induction on tree height; soundness by explicit collision extractor naming the strings hashed | proved: `C40_every_item_verifies`, `C40_resigning_refuted` |
| C41 | Accepted certificates have a valid path and a root signed under some key the verifier was asked about | Model/Verifier.v: transition system of callers, task channel, workers and the map of futures | inductive invariants; measure for termination; executed witness runs | proved: `C41_accepted`, `C41_certificate_restored`, `C41_refusals` |
| C42 | When all calls for a root agree on key and signature, Verify is exact | Model/Verifier.v: transition system of callers, task channel, workers and the map of futures | inductive invariants; measure for termination; executed witness runs | proved: `C42_exact` |
| C43 | The verifier cache ignores the key and signature | Model/Verifier.v: transition system of callers, task channel, workers and the map of futures | inductive invariants; measure for termination; executed witness runs | proved: `C43_key_ignored_refuted`, `C43_every_run` |
| C44 | A valid certificate can be rejected because of someone else's bad one | Model/Verifier.v: transition system of callers, task channel, workers and the map of futures | inductive invariants; measure for termination; executed witness runs | proved: `C44_valid_rejected_refuted`, `C44_only_then` |
| C45 | Erasure coding round-trips with any missing shards up to the parity | Model/Ecc.v over an erasure-code parameter (laws rs_laws, instance xor_code) | chunking arithmetic | proved: `C45_roundtrip`, `C45_stopped` |
| C46 | Too few shards are reported, never silently decoded | Model/Ecc.v over an erasure-code parameter (laws rs_laws, instance xor_code) | chunking arithmetic | proved: `C46_too_few`, `C46_never_decoded`, `C46_panics` |
| C47 | Quorum arithmetic of the robust call | Model/Network.v and the decision loop of RobustRequest | fold over arbitrary response lists; sorting lemmas | proved: `C47_succeeds`, `C47_fails`, `C47_decides`, `C47_stable`, `C47_matches_code`, `C47_duplicate_address`, `C47_coordinator_panics`, `C47_configured` |
| C48 | Relay indices agree on all machines | Model/Network.v and the decision loop of RobustRequest | fold over arbitrary response lists; sorting lemmas | proved: `C48_servers`, `C48_order_irrelevant`, `C48_index`, `C48_public_key`, `C48_public_key_unknown`, `C48_hostname`, `C48_contain_key`, `C48_inverse` |
| C49 | A robust call executes the handler exactly once when each relay forwards once | Model/Robust.v: collector, tasks, expiry, parcels, client packing and reconstruction, response buffers | state machine over arbitrary traffic; end-to-end composition (Proofs/RobustCall); concrete counterexample runs | proved: `C49_runs`, `C49_own_parcels`, `C49_exactly_once`, `C49_too_few`, `C49_configured`, `C49_twice`, `C49_expiry` |
| C50 | One relay can spoil a robust call by repeating its parcel | Model/Robust.v: collector, tasks, expiry, parcels, client packing and reconstruction, response buffers | state machine over arbitrary traffic; end-to-end composition (Proofs/RobustCall); concrete counterexample runs | proved: `C50_too_few_relays`, `C50_repeated_parcel`, `C50_relay_forwards_first` |
| C51 | A robust call returns the handler's reply despite tau-1 silent or failing relays | Model/Robust.v: collector, tasks, expiry, parcels, client packing and reconstruction, response buffers | state machine over arbitrary traffic; end-to-end composition (Proofs/RobustCall); concrete counterexample runs | proved: `C51_accepted`, `C51_reply`, `C51_handler_error` |
| C52 | Pooled response buffers leak earlier replies | Model/Robust.v: collector, tasks, expiry, parcels, client packing and reconstruction, response buffers | state machine over arbitrary traffic; end-to-end composition (Proofs/RobustCall); concrete counterexample runs | proved: `C52_buffer_grows`, `C52_earlier_reply` |
| C53 | Responses are not authenticated beyond their note | Model/Robust.v: collector, tasks, expiry, parcels, client packing and reconstruction, response buffers | state machine over arbitrary traffic; end-to-end composition (Proofs/RobustCall); concrete counterexample runs | proved: `C53_only_note`, `C53_changed_reply` |
| C54 | Method names are parsed unambiguously | Model/Services.v | string splitting lemmas | proved: `C54_resolves`, `C54_unparsable`, `C54_resolves_iff`, `C54_lookup`, `C54_lookup_fails`, `C54_single_service` |
| C55 | A request object serves one call | Model/Request.v | operation sequences on a request object | proved: `C55_first`, `C55_cancelled`, `C55_stale` |
| C56 | Each direct call is completed at most once, by its own response or a timeout | Model/DirectClient.v: callers, sender, receiver and cleaner goroutines | inductive invariants over every schedule; executed witness runs | proved: `C56_own_response`, `C56_timeout`, `C56_once`, `C56_completes`, `C56_no_crash` |
| C57 | Two pending direct calls with one id: the first never completes | Model/DirectClient.v: callers, sender, receiver and cleaner goroutines | inductive invariants over every schedule; executed witness runs | proved: `C57_dropped` |
| C58 | Expiry honours age only for values that expose it | Model/Gc.v | case analysis on what the values expose | proved: `C58_by_age`, `C58_no_others`, `C58_not_exposed`, `C58_relay_tasks`, `C58_robust_requests`, `C58_pending_call_fails`, `C58_direct_calls` |
| C59 | A robust call to an unknown method kills the relays | Model/Robust.v: collector, tasks, expiry, parcels, client packing and reconstruction, response buffers | state machine over arbitrary traffic; end-to-end composition (Proofs/RobustCall); concrete counterexample runs | proved: `C59_unknown_method`, `C59_refused_parcel`, `C59_honest_call`, `C59_run_is_safe` |
| C60 | Message cache survives restarts only if the write completed | Model/Messages.v, Model/ChainCount.v: generateOnion, calculateChain (binary64 via Flocq), generateOnions as a transition system, cache file with crash points | induction on layers; floating-point error analysis; LTS invariants; prefix-of-file crash model | proved: `C60_same_pairs`, `C60_files_distinct`, `C60_partial_write_is_fatal` |
| C61 | The mix network delivers exactly the clients' messages | Model/System.v: all servers, their mixers, senders and clients as one transition system | multiset conservation per chain and layer; global measure; executed complete run of a two-server network | proved: `C61_delivers_exactly`, `C61_every_layer`, `C61_no_crash`, `C61_generated` |
| C62 | Overlapping Verify calls on one object can strip its certificate | Model/Verifier.v: transition system of callers, task channel, workers and the map of futures | inductive invariants; measure for termination; executed witness runs | proved: `C62_shared_object_refuted` |
| C63 | Every Verify call returns | Model/Verifier.v: transition system of callers, task channel, workers and the map of futures | inductive invariants; measure for termination; executed witness runs | proved: `C63_bounded`, `C63_no_deadlock` |
| C64 | Reusing a call id mixes the parcels of two calls | Model/Robust.v: collector, tasks, expiry, parcels, client packing and reconstruction, response buffers | state machine over arbitrary traffic; end-to-end composition (Proofs/RobustCall); concrete counterexample runs | proved: `C64_mixed` |
| C65 | The sender's note is checked under the receiver's key | Model/Robust.v: collector, tasks, expiry, parcels, client packing and reconstruction, response buffers | state machine over arbitrary traffic; end-to-end composition (Proofs/RobustCall); concrete counterexample runs | proved: `C65_iff`, `C65_cleanup_refuses` |
| C66 | A response that meets an expiring call crashes the client | Model/DirectClient.v: callers, sender, receiver and cleaner goroutines | inductive invariants over every schedule; executed witness runs | proved: `C66_crash`, `C66_only_after` |
| C67 | A failed send stops the client for good | Model/DirectClient.v: callers, sender, receiver and cleaner goroutines | inductive invariants over every schedule; executed witness runs | proved: `C67_receiver`, `C67_cleaner`, `C67_response_blocks`, `C67_expiry_blocks`, `C67_stays` |
| C68 | What a direct-call stream runs and answers | Model/DirectServer.v | fold over the stream; forged note instance | proved: `C68_runs`, `C68_stream`, `C68_honest` |
| C69 | A note authorises any direct call | Model/DirectServer.v | fold over the stream; forged note instance | proved: `C69_any_request`, `C69_claimed_caller`, `C69_from_relayed_parcel`, `C69_any_reply` |
| C70 | Responses reach the relays in order | Model/ServerStreams.v: per-relay queues, stream senders | LTS invariants, FIFO refinement, executed witness runs | proved: `C70_in_order`, `C70_fifo`, `C70_no_crash`, `C70_bounded`, `C70_complete` |
| C71 | One silent relay stops the server after 100 calls | Model/ServerStreams.v: per-relay queues, stream senders | LTS invariants, FIFO refinement, executed witness runs | proved: `C71_at_most_100`, `C71_quota`, `C71_witness` |
| C72 | A relay that disconnects crashes the server | Model/ServerStreams.v: per-relay queues, stream senders | LTS invariants, FIFO refinement, executed witness runs | proved: `C72_crash`, `C72_no_call_finishes` |
| C73 | A relay answers each request at most once, to the client that made it | Model/Relay.v | LTS invariants, executed witness runs | proved: `C73_answers`, `C73_order`, `C73_arrives`, `C73_settles` |
| C74 | A relay loses a response that is early, or whose id another client uses | Model/Relay.v | LTS invariants, executed witness runs | proved: `C74_early`, `C74_overwritten` |
| C75 | A client that leaves with 102 calls under way stops a relay for all clients | Model/Relay.v | LTS invariants, executed witness runs | proved: `C75_stuck`, `C75_reached` |
| C76 | One malformed message crashes its receiver | the receivers of Robust/Relay models with malformed fields (no separate model file) | the receiving function evaluates to Panic for every message of the malformed shape | proved: `C76_client`, `C76_relay`, `C76_task`, `C76_server` |
| C77 | Dial hides failures | Model/Coordinator.v | decision function of Dial; LTS of connection goroutines | proved: `C77_connected`, `C77_failure_looks_like_success`, `C77_error`, `C77_close_twice`, `C77_close_after`, `C77_nil_connection` |
| C78 | Closing a coordinator with a response in flight crashes | Model/Coordinator.v | decision function of Dial; LTS of connection goroutines | proved: `C78_open`, `C78_crash`, `C78_safe` |
| C79 | A broken server connection stops a relay's clients | Model/Coordinator.v | decision function of Dial; LTS of connection goroutines | proved: `C79_fifo`, `C79_ended`, `C79_client_stops`, `C79_reached` |
| C80 | A relay's responses to a robust call, and the cleanup that blocks a connection | Model/RelayConn.v | LTS invariants, executed witness runs | proved: `C80_once`, `C80_stuck`, `C80_dropped` |
| C81 | One broken relay connection ends a client's robust calls | Model/RelayConn.v | LTS invariants, executed witness runs | proved: `C81_at_most_100`, `C81_blocked`, `C81_reached` |
| C82 | The mix network completes every fully sent chain | Model/System.v: all servers, their mixers, senders and clients as one transition system | multiset conservation per chain and layer; global measure; executed complete run of a two-server network | proved: `C82_bounded`, `C82_settles`, `C82_completes` |
| C83 | Altered ciphers are rejected | Model/Tibe.v, Model/Cfb.v over an abstract field / modules / bilinear pairing (mathcomp) | Lagrange interpolation; the loops refined to ring sums; CFB mode proved for every block function; instance over the BLS12-381 group order (Proofs/FpSetting) | proved: `C83_mac_changed`, `C83_same_mac`, `C26_authenticated` |
| C84 | A generated deployment delivers end to end | Model/Deployment.v joins Model/KeyConfig.v, Tibe.v, TibeCodec.v, Messages.v and System.v: the parameters Encrypt, mpks and peel of the generator and the mix network become the real scheme on the real configurations | the scheme is correct on its bytes (DeploymentProofs.v: C36 + C35 + C26), then the system theorems C61 and C82 | proved: `C84_onions_exist`, `C84_delivers_exactly`, `C84_completes`, `C84_systems_exist` |
| C85 | The workflow of a round: what is collected is what clients wrote | the same, plus the calls of the workflow (Spec/DeploymentSpec.v) | C05 (workload), C84, regrouping lemma; generator schedules by C20 | proved: `C85_inputs`, `C85_refused`, `C85_opens`, `C85_collects_exactly`, `C85_collects`, `C85_possible`, `C85_generator` |
| C86 | Key generation uses a constant seed: keys are fresh within a process and public across processes | Model/KeySeed.v: the package-level reader threaded through NewRandomPoly, vsspolynomialsSetup, DKGSetup and createConfigs, for histories of calls; the reader is an arbitrary deterministic state machine | induction on the history; the outsider (Spec/KeySeedSpec.v) is an explicit function of public data, correct by C84 | proved: `C86_fresh_draws`, `C86_sizes`, `C86_same_keys`, `C86_outsider_decrypts`, `C86_outsider_opens`, `C86_foreign_server` |
| C87 | A closed or broken direct connection strands its calls | Model/ClosedClient.v: Model/DirectClient.v plus whether each of the three goroutines of the client has returned, Close and the end of the stream | invariant: a goroutine that has returned is at no channel operation; induction on runs; every run projects to a run of the open client, so C56 carries over | proved: `C87_still_own`, `C87_stranded`, `C87_async_blocks`, `C87_close`, `C87_never_recovers`, `C87_break` |
| C88 | Concurrent rounds do not mix their messages, but one can stop the other | Model/Fleet.v: every server with its whole round table (Model/Rounds.v), one sender per opened round, waitingTasks of the connections between servers keyed by uuid, handlers between table look-up and AddMessages, clients; any number of rounds at the same time | refinement: for each round, erasing the other rounds maps every fleet run to a run of the one-round network of Model/System.v (FleetSim.v), so C61 and C82 carry over; C88_stall is an executed run (executable step function proved sound) plus an invariant of its continuations | proved: `C88_exact`, `C88_no_crash`, `C88_completes`, `C88_can_finish`, `C88_stuck`, `C88_replaced`, `C88_stall` |
| C89 | The verifier's workers: bounded queue, and Stop strands calls | Model/VerifierPool.v: Model/Verifier.v plus the task channel of capacity 8 per worker, tasks in the hands of workers, returned workers and Stop | every pool run projects to a run of Verifier.v; invariant linking channel items to waiting calls and queued tasks; measure; after the last worker returned, an invariant of all continuations | proved: `C89_same_answers`, `C89_accepted`, `C89_bounded`, `C89_no_deadlock`, `C89_capacity`, `C89_stop_drains`, `C89_later_calls`, `C89_strands` |
| C90 | The erasure coder's workers | Model/EccPool.v: calls, the two queues of capacity 36 per worker, workers, answer channels and Stop of reedsolomon.go as a transition system | the receiving loops do not depend on the order of the answers; invariant: what is queued, in work, answered and received of a call is exactly its tasks 0..35; measure; progress | proved: `C90_same_answers`, `C90_roundtrip`, `C90_too_few`, `C90_bounded`, `C90_no_deadlock`, `C90_completes`, `C90_workers_never_block`, `C90_stop_releases`, `C90_crash_only` |
| C91 | The erasure coder and the memory of its arguments | Model/EccMem.v: byte arrays, slices with capacity, Go append; the table of shards Reconstruct fills | direct, by the content of every array after the call; the code laws and C45 for the shards | proved: `C91_encode_result`, `C91_encode_keeps_argument`, `C91_encode_frame`, `C91_encode_overwrites`, `C91_adjacent`, `C91_adjacent_capped`, `C91_reconstruct_fills` |
| C92 | The life of a mix server: Dial, rounds before it, failures, Close | Model/Lifecycle.v: NewMixServer, Dial, Close, NewConnection and the connection a sender finds, over a table of all connections ever made | invariant: known connections are distinct and were made by the server; induction on the peers of Dial and on histories | proved: `C92_dial_ok`, `C92_never_refused`, `C92_before_dial`, `C92_dial_crashes`, `C92_dial_error`, `C92_dial_empty`, `C92_close`, `C92_close_ok`, `C92_close_twice`, `C92_redial_leaks`, `C92_close_leaks` |
| C93 | The two signatures of an exchange note | Model/Notes.v: a note with its two certificate fields, its two views, merkleSign (Model/Merkle.v) through each view; the encoding is a parameter | evaluation of Merkle verification of one leaf; C38 for batches | proved: `C93_sender`, `C93_receiver`, `C93_sender_binds`, `C93_receiver_binds`, `C93_both_signed`, `C93_both_signed_batch`, `C93_roles`, `C93_sender_as_receiver` |
| C94 | Stopping an rrpc server | Model/ServerStop.v: Stop, the collector, the goroutines of calls, CallStream readers and writers, the relay's goroutines and client writers, with counted channels, as a transition system | measure that decreases with every step after Stop; invariants; the stuck states are closed under steps; computed runs for the crashes | proved: `C94_bounded`, `C94_outcome`, `C94_hangs`, `C94_doomed`, `C94_can_return`, `C94_returns`, `C94_quiet`, `C94_closed_crashes`, `C94_nothing_delivered`, `C94_after_return`, `C94_handler_after_return`, `C94_late_handler_example`, `C94_late_crash_example`, `C94_hang_example` |
| C95 | Robust calls in the whole network return unless relays lose the response | Model/RobustNet.v: every goroutine and bounded channel between RobustRequest, the relays and the servers, as a transition system in which each parcel and response has a place; stalled processes make no more steps | invariant of all places; a measure bounds runs; a settled state is analysed channel by channel; a stalled relay by counting what it holds up; C49/C51 give the contents; computed runs for the hang and for the hypotheses | proved: `C95_bounded`, `C95_returns`, `C95_reads`, `C95_lost`, `C95_loses`, `C95_iff`, `C95_stalled`, `C95_collector`, `C95_reply`, `C95_hang_example`, `C95_returns_example` |
| C96 | A server on the plain gRPC transport answers every call as the rrpc transport would | Model/PlainGrpc.v: newGrpcServer and SingleServiceFromGRPCServiceDesc with the variables their closures capture as cells of a store; registration and lookup of grpc.Server described; AsyncDirectCall as a transition system | induction over the loops for every iteration order: each registered closure refers to its own cell; C54 for the lookup | proved: `C96_same_dispatch`, `C96_generated`, `C96_services`, `C96_async_reads`, `C96_async_ends` |
| C97 | A direct call's handler runs at most once, in send order, and healthy direct calls all return their own answer | Model/DirectNet.v: the client of Model/DirectClient.v, two bounded FIFO streams and the loop of the server as one transition system | invariant: received ++ on the way ++ at the server = ran, ran ++ on the way = sent, without repetition; potential bounds the steps; settled states channel by channel; the jam is an invariant of its continuations and reached by induction on the capacity | proved: `C97_once`, `C97_own`, `C97_send_error`, `C97_bounded`, `C97_returns`, `C97_jam`, `C97_jam_reached`, `C97_late_run`, `C97_other_answer` |
| C98 | Proofs of direct responses: who publishes what, never blocking, bounded | Model/ProofPub.v: clients, their waiting tasks and PublishProof loops, relay connections with the bounded proof channel and the sending goroutine; every nondeterministic choice is in the label | invariant relating the history to the queues and to each client's position, induction on runs | proved: `C98_every_relay`, `C98_host`, `C98_source`, `C98_fifo`, `C98_refused`, `C98_never_blocks`, `C98_short`, `C98_exit_only`, `C98_exit_final`, `C98_complete`, `C98_room`, `C98_unverified_published`, `C98_close_loses`, `C98_full_drops` |
| C99 | Digests and keys as text and bytes | Model/DigestText.v: base32 on bits, the length check, little-endian number, key codecs | induction on the bit strings; letters by computation on the 32 cases | proved: `C99_text`, `C99_parse`, `C99_round_trip`, `C99_injective`, `C99_accepts`, `C99_sixteen`, `C99_number`, `C99_zero`, `C99_keys` |
| C100 | Several streams in one relay's name: split responses, and a restarted relay is poisoned | Model/RelayStreams.v: the channels, any number of streams per relay address with their writer goroutines, breaking connections | invariant relating history, channels and writers; constructed runs for the findings | proved: `C100_split`, `C100_written`, `C100_only_broken`, `C100_stays`, `C100_closed`, `C100_poison`, `C100_impostor`, `C100_restart` |
| C101 | A node's own keys are fixed when it is created | Model/KeyMem.v: a heap of scalars, points, polynomials, exponent polynomials and nodes; the pointers the caller holds; every call and every write of the caller is a label | a frame lemma for every call (what it may change, which pointers it gives out); invariant: the node's addresses are not held and not inside any other object | proved: `C101_node_keys_fixed`, `C101_new_node_total` |
| C102 | Public shares of an exponent polynomial: by reference, and stale after SetBytes | Model/KeyMem.v; Model/Tibe.v for the values in P47 | cache entries are never removed: invariant over all continuations; last-write function of the history | proved: `C102_public_share`, `C102_index_zero`, `C102_set_bytes`, `C102_stale_after_set_bytes`, `C102_stale_share` |
| C103 | Copies of polynomials are independent; equality compares values | Model/KeyMem.v | frame lemma; freshness of allocated addresses | proved: `C103_untouched`, `C103_copy`, `C103_copy_independent`, `C103_fresh_answers`, `C103_equal` |
| C104 | A received share is kept by reference | Model/KeyMem.v | invariant: the entry of the node's table stays; last-write functions of the history | proved: `C104_share_by_reference` |
| C105 | Any d shares of a degree-d polynomial say nothing about the secret | NewRandomPoly of Model/KeySeed.v on the list of scalars its reader hands out; Eval, Secret of Model/Tibe.v; a finite field | Interpolation gives a polynomial with prescribed differences at 0 and at the indices; adding it is a bijection between the coefficient tuples with one secret (and view) and those with another; counting by a partition of all tuples | proved: `C105_secrecy`, `C105_count`, `C105_threshold`, `C105_public` |
| C106 | One honest mix in a chain is enough to unlink messages from senders | ShuffleOnions of Model/Shuffle.v with draws_reader for the honest mix and arbitrary readers for the others; a chain folds processing and shuffling | each shuffle with fixed answers is a fixed table; composition of tables; the bijection of C15 turns another input order into other draws of the honest mix; counting by injections | proved: `C106_unlinkable`, `C106_draws`, `C106_every_order`, `C106_position` |
| C107 | A dealer binds itself if receivers verify, but no receiver does | Model/Tibe.v; a dealer is any vss_share value given to ReceiveShare | every public polynomial is the image of some coefficients (G1 cyclic); C28 and the characterisation of vote checking | proved: `C107_binding`, `C107_wrong_share`, `C107_wrong_mpk` |
| C108 | The bias of the shuffle is bounded for every number of onions | Model/Shuffle.v with a reader that answers a list of words | the words behind a draw (C15) multiplied along the unique draw list of an order; termwise comparison of the products | proved: `C108_bias`, `C108_ratio` |
| C109 | Hashing, signing and verifying through a shared buffer see only their own object | Model/HashWriter.v: every hashing, signing and verifying function again, with the bytes.Buffer threaded through it; a worker is a list of tasks | each function equals its buffer-free version and only appends to the buffer; sorting by distinct positions removes the map order | proved: `C109_build`, `C109_verify`, `C109_sign`, `C109_worker`, `C109_unencodable` |
| C110 | An onion's length depends only on its message's length and its layer, and mixes preserve the differences | Model/Messages.v with the concrete encryption of Model/Deployment.v; Model/Mixer.v; Model/System.v | lengths of CFB, MAC and point codecs; induction on the layers; C08 for a mix, C84 for the network | proved: `C110_generated`, `C110_peel`, `C110_mix`, `C110_traced` |
| C111 | Only the key of its identity opens a cipher; an onion of another round is rejected and crashes the mix that forwards it | Model/Tibe.v Encrypt/Decrypt, Model/Deployment.v, Model/Mixer.v and the sender of Model/System.v | non-degeneracy and bilinearity of the pairing force the key, else an explicit collision; C08 and C22 for the crash | proved: `C111_only_key`, `C111_other_server`, `C111_other_round`, `C111_rejected_crashes` |
| C112 | Nothing recognises a replayed onion: a message comes out as often as its onion was sent | Model/Mixer.v, Model/System.v | C08 and C84 give the outputs as a permutation of the decryptions; counting along the correspondence | proved: `C112_mix`, `C112_delivered_as_often` |
| C113 | A chain of mixes answers for all its messages or for none; chains do not affect each other | Model/System.v (calls can be lost at any moment) | conservation of batches (added + in flight + lost = posted), the bound on what reaches a mix, and C08; the completion proof of C82 per chain | proved: `C113_all_sent`, `C113_nothing_lost`, `C113_one_loss_stops_chain`, `C113_one_missing_stops_chain`, `C113_other_chains` |
| C114 | Signatures survive the transport | Model/Wire.v: notes, parcels and certificates as Go values (nil slices distinct from empty ones), protobuf round trip, UTF-8, SetMerkleCert/unpackMerkleCert | unpack after any number of transports of a packed certificate is the certificate; the popped objects are fixpoints of the transport; sign_strs_ok for the paths | proved: `C114_stable`, `C114_certificate`, `C114_refused_note`, `C114_refused_parcel`, `C114_direct`, `C114_empty_id`, `C114_sign_after_transport`, `C114_robust`, `C114_response` |
| C115 | Any degree+2 servers together open exactly what every other server opens | Model/Tibe.v Vote, ReconstructDecrypter; Model/Deployment.v DecryptWith; Model/KeyConfig.v configurations | C36 (votes of degree+2 generated nodes rebuild the key) for every identity of the round, C18 for the layers, lifted to the list of addresses | proved: `C115_key`, `C115_open_alike`, `C115_survivors`, `C115_read_everything`, `C115_too_few` |
| C116 | A generated deployment with several rounds at once delivers every round's messages, and only those | Model/Fleet.v with the decryption of Model/Deployment.v at every round identity | C88 for the rounds, C84 for what generated onions deliver; delivery is a function of the onion, so the outputs are the messages | proved: `C116_exact`, `C116_no_crash`, `C116_completes`, `C116_can_finish` |
| C117 | One relay decides which method a robust call runs | Model/Robust.v sign_requests by the relay (definition reissued in Properties/P60_RelayForgery.v), validateParcel, collect, runTask, respond, validateRrpcResponse, client_reconstruct | C49 (exactly one run, note and handler of the first parcel), reconstruct_columns for the pieces whoever signed them, then the reply half of C51 (task_reply) for a note that is not the client's | proved: `C117_accepted`, `C117_first_parcel`, `C117_relay_chooses` |
| C118 | One relay can change the bytes of a request it carries | the same; Model/Ecc.v chunk_of, Split, authEncode | the segments of the 36 chunks are disjoint and cover, cut positions: changing one byte changes one piece (lemma holder); then the parcels that arrive are pieces of the changed request and C117's core lemma applies | proved: `C118_changed_byte` |
| C119 | A request made without any key crashes a server; a missing field crashes a relay, server or client | Model/WireRequests.v: VerifyWire, validateWire, callStream, relay_rpc, checkDirect, dispatchWire with missing fields and keys of any length | case analysis for the exact set of crashing requests; induction over the stream for safety and for the cache; completeness of merkle proofs (C37) for the certificate without a key | proved: `C119_exact`, `C119_agrees`, `C119_safe`, `C119_cache`, `C119_no_key`, `C119_first`, `C119_through_relay`, `C119_relay`, `C119_direct`, `C119_client` |
| C120 | A parcel counts for at most one run of a handler, whatever expires; but a replayed call runs again | Model/Robust.v collect, validateParcel; Model/DirectServer.v direct_stream | invariant over the events: the parcels of the runs followed by the pending ones are a sublist of what was pending and arrived; counting by relay index; for the replay, the view of one call alone (collect_uuid) from the state reached; monotonicity of Verify in its cache | proved: `C120_each_parcel_once`, `C120_bound`, `C120_at_most_once`, `C120_replay`, `C120_accepted_again`, `C120_direct` |
| C121 | An error text that is not UTF-8 loses the call, and in a robust call stops the server | Model/Status.v: statuses with code and text, which messages can be encoded; the streams of Model/ServerStreams.v with all connections up | invariant: everything buffered or to be handed over can be encoded; otherwise C70 (order of handing over) closes all channels, which stay closed | proved: `C121_utf8_is_safe`, `C121_never_sent`, `C121_crash`, `C121_direct`, `C121_direct_arrives` |
| C122 | An error status with code OK is taken as success, without a signature | Model/Status.v validate, decode, dispatch; Model/Network.v RobustRequest | case analysis for the exact rule; C47 (the responses a robust call returns) for the panic | proved: `C122_accepted_iff`, `C122_unsigned`, `C122_otherwise`, `C122_crash`, `C122_handler`, `C122_error_arrives`, `C122_direct` |
| C123 | One robust call with a method name or id that is not UTF-8 ends all robust calls of the client | Model/RelayUp.v: the transition system of Model/RelayConn.v restricted to relays and connections that are up, with the failures that the client's own requests cause | invariants on queues, entries and ids; every response read goes back to a request sent; the queue of a relay counts the calls that get past it (as in C81) | proved: `C123_answers`, `C123_utf8_is_safe`, `C123_not_sent`, `C123_finishes_streams`, `C123_afterwards` |
| C124 | One direct call with a method name or id that is not UTF-8 ends the client's direct calls to that server | Model/DirectUp.v: the transition system of Model/DirectNet.v restricted to a server and connection that are up | what is sent is frozen after the first failed send; C97 (handlers run only for requests sent, a response is of a call with the same id) for runs and responses | proved: `C124_utf8_is_safe`, `C124_not_run`, `C124_afterwards`, `C124_returns_error` |
| C125 | The shared map answers every call by the last write to its key, for every interleaving | Model/SyncMap.v: the typed methods of internal/msync/map.go over sync.Map as atomic steps; a Range as a process that records the mappings and keys there were since it began; dynamic types of values | content of a key as a function of the history (last write), by induction over runs; invariant of a running Range | proved: `C125_answers`, `C125_taken_once`, `C125_one_creator`, `C125_same_value`, `C125_range_once`, `C125_range_value`, `C125_range_all`, `C125_untyped`, `C125_nil_interface` |
| C126 | The cleanup removes exactly the expired entries that nobody touches, but may remove a young one that replaced an expired one | Model/CleanMap.v: rrpc/gc.go cleanmapAccordingToTTL as a process on Model/SyncMap.v, looking and deleting as separate steps, beside arbitrary users | invariant of a pass for one key nobody else touches; for the finding a concrete run for any two values | proved: `C126_sweep`, `C126_by_age`, `C126_drops`, `C126_only_replaced`, `C126_young_lost` |
| C127 | The random number helpers are exact: no bias, no truncation, no value without randomness | Model/Rand.v: rand.go RandUint64, RandUint63, RandBytes as functions of the answer of crypto/rand.Read | inverse of the little-endian decoding; masking as remainder modulo 2^63 | proved: `C127_uint64`, `C127_uint63`, `C127_two_answers`, `C127_bytes`, `C127_failure` |

No property is partial.  Where a manifest note names a restriction (sizes below 2^32, honest clients, …) the restriction is a
hypothesis visible in the theorem's statement and part of the English property.

## What is modelled and what is not

Modelled (file: functions, with the model file):

* `config/topology.go`: all (Topology). `config/config.go`: createConfigs, DKGSetup, setMixNames, GetMixesSortedByLayer,
  CreateTIBENode, CreateTIBEPublisher, CreateCoordinator's threshold (KeyConfig, Topology, Network).
* `server.go`: NewRound, AddMessages, GetMessages, EndRound, computeId (Rounds, System), NewMixServer, Dial, Close (Lifecycle). `mixer.go`: all but logging (Mixer).
  `sender.go`: worker, createRRPCRequest (Onion, System). `shuffle.go`: all (Shuffle). `messages.go`: all (Onion, Messages, ChainCount).
* `internal/crypto/tibe`: poly.go, exponent_poly.go, vss_ibe.go, scheme2.go, util.go, aes.go (Tibe, Cfb, CipherMem, Memo, TibeCodec).
  `internal/crypto/merklearray`: all (Merkle). `internal/crypto/rand.go` without the seeded generator of the tests (Rand). `internal/crypto/util.go`: hashRep (Merkle; with the buffers it writes to: HashWriter), Digest's text form and number (DigestText); memory shared by the key objects of `internal/crypto/tibe` (KeyMem); `internal/crypto/ed25519.go` key codecs (DigestText). `internal/msync/map.go` (SyncMap; elsewhere as atomic maps).
* `internal/ecc/reedsolomon.go`: AuthEncode, AuthReconstruct (Ecc), the workers, queues and Stop (EccPool), the memory of the arguments (EccMem).
* `rrpc`: merkle_verifier.go Verify and worker (Verifier), its pool, bounded channel and Stop (VerifierPool); verifiables.go (Merkle, Robust, Notes); interfaces.go, grpc_wrapper.go NewConnection and Close (Lifecycle), newGrpcServer and AsyncDirectCall (PlainGrpc); network_data.go (Network);
  coordinator.go (Network, Coordinator, RelayConn); net_conns.go (Coordinator, RelayConn); relay.go (Relay);
  rrpc_server_stream.go (Robust, ServerStreams; several streams per relay: RelayStreams); publishing of proofs across client.go, coordinator.go, net_conns.go (ProofPub); client.go (Robust, DirectClient); server.go DirectCall (DirectServer), Stop (ServerStop); client and server of direct calls together (DirectNet);
  all of them together for robust calls (RobustNet); requests.go (Request); services.go (Services); gc.go (Gc; beside other users of the map: CleanMap; DirectClient, RelayConn); ecc_packing.go (Robust);
  the signed byte strings that travel, and what a decoder rebuilds from them (Wire, WireRequests); errors as `google.rpc.Status` records: server.go errToRpcErr, rrpc_server_stream.go publishResponses,
  coordinator.go validateRrpcResponse, client.go (Status); messages that cannot be encoded (RelayUp, DirectUp: the runs of RelayConn and DirectNet on connections that stay up).

Not modelled: TLS and gRPC transport (a stream is a FIFO that may fail at any time), logging, wall-clock time (expiry is a
nondeterministic or explicit tick), the Go memory model below the level of the code's own synchronisation (data races are
not detected by the model, except where two goroutines' accesses are separate steps), the number-theoretic and coding
libraries (kyber/BLS12-381, klauspost/reedsolomon, AES, SHA, ed25519: parameters with laws), protobuf/binc/JSON byte
formats (parameters with laws; that grpc's SendMsg ends the stream on an encoding error and that protobuf rejects
strings that are not UTF-8 is described from their documentation, not verified; likewise Go's sync.Map), `UpdateMixes`/recovery (they panic "implement me"), metrics and performance,
`config` JSON file loading, `experiments/` and test helpers.

## Trusted base

* Coq 8.16.1's kernel; no `native_compute`; `vm_compute` is used in examples and witness runs (part of the kernel's conversion).
* The faithfulness of the model to the Go source, by reading; line references at each definition.
* The laws of external algorithms listed above, which appear as premises in the theorem statements.

### Print Assumptions

Every theorem named in `MANIFEST.json` prints "Closed under the global context", except four, which mention binary64
arithmetic (Flocq, hence the standard library's real numbers):
`C18_generateOnion`, `C19_chains`, `C19_boundaries`, `C85_generator` list exactly

* `ClassicalDedekindReals.sig_not_dec`
* `ClassicalDedekindReals.sig_forall_dec`
* `FunctionalExtensionality.functional_extensionality_dep`
* `Classical_Prop.classic`

all from Coq's standard library.  The development declares no axiom.
