{"id": "C01", "title": "Cascade topology has the documented shape", "statement": "CreateCascadeTopology(servers, L) returns exactly L layers of len(servers) mixes; the i-th mix of layer l is hosted by servers[(i+l) mod n], is called m(l,(i+l) mod n), and records that layer and server index; its only predecessor is the i-th mix of layer l-1 (GENESIS for layer 0) and its only successor the i-th mix of layer l+1 (GENESIS for the last layer).", "quantifier": "every list of server names (duplicates allowed, any length) and every number of layers", "why_tests_cant": "tests check one size (5 servers, 4 layers); the index arithmetic must be right for all sizes", "anchors": ["config/topology.go:CreateCascadeTopology", "config/topology.go:createLayer", "config/topology.go:SetPredecessors", "config/topology.go:SetSuccessors"]}
{"id": "C02", "title": "Mix names identify mixes", "statement": "In a cascade topology GetMix(name) of the name of any mix returns that very mix (with its final predecessors and successors), GetMix of any other name, in particular GENESIS, returns nil; so names never collide across layers or servers.", "quantifier": "every server list, layer count and every string looked up", "why_tests_cant": "collision freedom of the printed names is over all pairs of decimal numbers", "anchors": ["config/topology.go:GetMix", "config/topology.go:createLayer"]}
{"id": "C03", "title": "Following successors from the first layer traverses one whole chain and stops", "statement": "Starting at the i-th mix of layer 0 and repeatedly moving to GetMix(Successors[0]) visits the i-th mix of layers 0,1,...,L-1 in order and then reaches nil; it never loops and never leaves chain i.", "quantifier": "every topology built by CreateCascadeTopology with at least one layer, every chain index", "why_tests_cant": "termination and confinement for every size", "anchors": ["config/topology.go:SetSuccessors", "server.go:NewRound"]}
{"id": "C04", "title": "Every server works exactly once per layer, and its sorted mix list is its work in layer order", "statement": "With distinct server names each layer is a permutation of the servers, any n consecutive hops of one chain visit every server exactly once, and a server's configured mix list (whatever order Go's map iteration yields) is exactly [m(0,k), m(1,k), ..., m(L-1,k)] for its own index k.", "quantifier": "every list of distinct names, every layer count, every map iteration order and every correct sort", "why_tests_cant": "Go's map iteration order and unstable sort cannot be exhausted by tests", "anchors": ["config/topology.go:createLayer", "config/config.go:setMixNames", "config/config.go:GetMixesSortedByLayer"]}
{"id": "C05", "title": "NewRound propagates each first-layer workload along its whole chain, or refuses", "statement": "NewRound fails with FailedPrecondition, and changes no round, iff some first-layer mix has no entry in the request; otherwise every mix of chain i (on every layer) gets exactly the workload given for the first-layer mix of chain i, no matter what other entries the request carries.", "quantifier": "every cascade topology, every workload map (extra entries allowed), every round number and prior server state", "why_tests_cant": "tests use one consistent request; extra or missing keys and all sizes are not covered", "anchors": ["server.go:NewRound"]}
{"id": "C06", "title": "Round lifecycle", "statement": "For any sequence of NewRound/AddMessages/GetMessages/EndRound calls: AddMessages and EndRound answer NotFound and GetMessages answers FailedPrecondition exactly when the round is not open; a round is open iff its last successful NewRound is not followed by EndRound; EndRound succeeds exactly once per opening; calls for one round never change another round's state.", "quantifier": "every finite history of API calls over any set of round numbers", "why_tests_cant": "quantifies over all histories", "anchors": ["server.go:NewRound", "server.go:EndRound", "server.go:AddMessages", "server.go:GetMessages", "internal/msync/map.go:Map"]}
{"id": "C07", "title": "Reopening an open round discards what it had received", "statement": "A second successful NewRound for a round that is still open replaces its state: mixes of that round behave as if no message had ever been added (the code has no guard; users relying on NewRound being idempotent lose messages).", "quantifier": "every history before the second NewRound", "why_tests_cant": "needs all prior states", "anchors": ["server.go:NewRound"]}
{"id": "C08", "title": "A mix outputs exactly the decryptions of the onions it was given", "statement": "Whenever GetMessages returns for a mix, the returned list is a permutation of the decryptions of the first W onions handed to that mix, W being its workload, each used exactly once: none lost, duplicated or invented, whatever the batch boundaries, senders, worker interleaving and shuffle randomness.", "quantifier": "every sequence of AddMessages calls (hostile ones included), every interleaving of handler, decryption workers, shuffle goroutines, and every random stream", "why_tests_cant": "schedules and batchings are unbounded", "anchors": ["mixer.go:AddMessages", "mixer.go:HandleNewInputs", "mixer.go:NewMixers", "mixer.go:GetOutputs", "mixer.go:shuffleAndSend"]}
{"id": "C09", "title": "No mix output is visible before the whole workload was processed and shuffled", "statement": "At every moment of every execution GetMessages for a mix blocks unless W onions have been decrypted for it and the shuffle has been applied; once it returns a value it returns the same value ever after (until the round ends).", "quantifier": "every reachable state of every execution and every later state", "why_tests_cant": "needs all schedules", "anchors": ["mixer.go:GetOutputs", "mixer.go:shuffleAndSend"]}
{"id": "C10", "title": "A correctly fed mix never crashes and always completes", "statement": "If every mix is fed by its designated predecessors, with valid onions and no more than its workload in total, no execution panics; every internal step reduces a bounded measure, and a non-complete fully fed mix always has an enabled step, so every run ends with GetMessages available for every fully fed mix that received at least one batch.", "quantifier": "every batching and every schedule of well-behaved calls, any number of workers >= 1 and any queue capacity >= 1", "why_tests_cant": "deadlock freedom and termination for all schedules", "anchors": ["mixer.go:AddMessages", "mixer.go:NewMixers", "mixer.go:shuffleAndSend"]}
{"id": "C11", "title": "Over-delivery or an unknown receiver crashes the server instead of being rejected", "statement": "User expectation: AddMessages with more onions than the announced workload, or for a mix the server does not host, returns an error and leaves the server usable. The code instead has a reachable panic in each case.", "quantifier": "every workload and every over-delivered batch", "why_tests_cant": "tests never over-deliver", "anchors": ["mixer.go:AddMessages", "mixer.go:HandleNewInputs"]}
{"id": "C12", "title": "A completed mix forwards its output to the next layer exactly once", "statement": "In every execution in which no further batch reaches a mix after its expected counts were met, its output is put on the sender queue exactly once (never for last-layer mixes). User expectation that late empty batches are harmless is false: each such batch forwards the whole output again.", "quantifier": "every schedule; refutation by a concrete call sequence", "why_tests_cant": "duplication depends on schedule and on batches no test sends", "anchors": ["mixer.go:shuffleAndSend", "mixer.go:isDone", "mixer.go:AddMessages"]}
{"id": "C13", "title": "A chain without messages never completes", "statement": "User expectation: GetMessages for a last-layer mix returns (an empty list) when no client chose that chain. In the code a mix that is never handed a batch stays blocked in every execution, and a sender given an empty output sends no batch to the next layer.", "quantifier": "every execution in which no batch reaches the mix", "why_tests_cant": "a test would hang; needs all schedules", "anchors": ["mixer.go:GetOutputs", "sender.go:worker", "messages.go:GroupOnionsByHostname"]}
{"id": "C14", "title": "Shuffling only permutes", "statement": "ShuffleOnions leaves the slice a permutation of what it was, of the same length, for every output of the random source (including short reads, constant or failing readers), and never indexes out of range.", "quantifier": "every slice, every random byte stream, fresh or reused shuffler", "why_tests_cant": "all streams and lengths", "anchors": ["shuffle.go:ShuffleOnions", "shuffle.go:permutation", "shuffle.go:randInt"]}
{"id": "C15", "title": "Every ordering is reachable, by exactly one sequence of draws", "statement": "For every length n and every permutation of n elements there is exactly one sequence of draws j_{n-1},...,j_0 (j_i <= i) that makes the shuffler produce it; and each draw value j<m is hit by floor(2^32/m) or one more of the 2^32 possible 4-byte reads (for m <= 2^32).", "quantifier": "every n, every permutation, every modulus", "why_tests_cant": "combinatorial statement over all permutations", "anchors": ["shuffle.go:permutation", "shuffle.go:randInt"]}
{"id": "C16", "title": "Onion routing header round-trips", "statement": "For every layer and position below 2^32 and every cipher, an onion produced by wrapping carries them so that ExtractMixConfig returns topology.Layers[layer].LogicalMixes[pos] and ExtractCipher returns the cipher; onions shorter than 8 bytes, or whose indices lie outside the topology, panic.", "quantifier": "every byte string, every topology, all 2^64 index pairs", "why_tests_cant": "all byte strings", "anchors": ["messages.go:ExtractMixConfig", "messages.go:ExtractCipher", "messages.go:onionWrap"]}
{"id": "C17", "title": "Grouping by mix or host partitions the onions", "statement": "GroupOnionsByMixName / GroupOnionsByHostname put every onion in exactly one group, the one of the mix (host) it names, keep the original relative order inside each group, create no empty group, and lose or duplicate nothing.", "quantifier": "every list of routable onions and every topology", "why_tests_cant": "all lists", "anchors": ["messages.go:GroupOnionsByMixName", "messages.go:GroupOnionsByHostname"]}
{"id": "C18", "title": "A generated onion peels layer by layer to its message", "statement": "For every message, round and chosen chain, the generated onion names the chain's first-layer mix, and decrypting it with the round key of the named host gives an onion naming the next layer's mix of the same chain, and so on; after the last layer the original message is obtained, for all random choices made during encryption.", "quantifier": "every message, topology size, number of layers, chain, round, master keys and encryption randomness", "why_tests_cant": "all depths and messages", "anchors": ["messages.go:generateOnion", "messages.go:onionWrap", "internal/crypto/tibe/vss_ibe.go:Encrypt", "internal/crypto/tibe/vss_ibe.go:Decrypt"]}
{"id": "C19", "title": "Chain choice is in range, deterministic and of the documented length", "statement": "calculateChain(n, msg) returns ceil(sqrt(2n)) chains, each in [0,n), determined by the message alone (iterated hash).", "quantifier": "every n >= 1 (below 2^50 for the float64 computation) and every message", "why_tests_cant": "float rounding for all n", "anchors": ["messages.go:calculateChain"]}
{"id": "C20", "title": "Work is split over CPUs without losing clients", "statement": "generateOnions(numClients) starts goroutines whose quotas are non-negative and sum to numClients for every CPU count, so under every interleaving exactly numClients message/onion pairs are collected and the collector never blocks forever.", "quantifier": "every numClients >= 0, every CPU count >= 1, every interleaving", "why_tests_cant": "all CPU counts and schedules", "anchors": ["messages.go:generateOnions"]}
{"id": "C21", "title": "Round identities: distinct for equal-length host names, ambiguous otherwise", "statement": "The string hashed by computeId(host, round) determines (host, round) whenever the compared host names have equal length (and determines the round for a fixed host); user expectation that it always does is false.", "quantifier": "all host pairs and rounds", "why_tests_cant": "all pairs", "anchors": ["server.go:computeId"]}
{"id": "C22", "title": "The request sent to each next host contains exactly that host's onions, grouped per mix", "statement": "For every mix output, the sender's requests to the different hosts together carry exactly the output's onions, each in the request for the host and under the logical receiver it names, with the right logical sender; request ids are pairwise different for different (host, logical sender) but do not depend on the round, so two overlapping rounds reuse the same ids.", "quantifier": "every output list, topology, host, round", "why_tests_cant": "all outputs and all pairs of rounds", "anchors": ["sender.go:worker", "sender.go:createRRPCRequest"]}
{"id": "C23", "title": "Share values are evaluations of the polynomial", "statement": "Poly.Eval(i) is sum_j a_j i^j in the scalar field, Secret() is Eval(0), and CreateShares(n) returns the n shares (j, P(j)), j=1..n.", "quantifier": "every polynomial, every integer argument, every n", "why_tests_cant": "all polynomials", "anchors": ["internal/crypto/tibe/poly.go:Eval", "internal/crypto/tibe/poly.go:CreateShares", "internal/crypto/tibe/poly.go:Secret"]}
{"id": "C24", "title": "Any sufficiently large set of points reconstructs the secret", "statement": "reconstructSecret applied to any map of at least degree+1 distinct indices to correct evaluations returns P(0), in every map iteration order.", "quantifier": "every polynomial, every set of >= degree+1 distinct 64-bit indices, every iteration order", "why_tests_cant": "algebraic identity over a 255-bit field", "anchors": ["internal/crypto/tibe/poly.go:reconstructSecret"]}
{"id": "C25", "title": "Public shares match private shares under any call history", "statement": "GetPublicShare(i) of P's exponent polynomial always returns g^{P(i)}, no matter which indices were requested before or concurrently (cache transparent); VerifyShare(i, s) accepts iff s = P(i).", "quantifier": "every polynomial, index, share and every history/interleaving of cached calls", "why_tests_cant": "all histories", "anchors": ["internal/crypto/tibe/exponent_poly.go:GetPublicShare", "internal/crypto/tibe/exponent_poly.go:VerifyShare", "internal/crypto/tibe/poly.go:GetExponentPoly"]}
{"id": "C26", "title": "Encrypting to an identity and decrypting with its key returns the message", "statement": "For every master secret, identity, message and randomness, Decrypter(id).Decrypt(Encrypt(id, msg)) = msg without error.", "quantifier": "every secret, id, message (any length), r and IV", "why_tests_cant": "all lengths and randomness", "anchors": ["internal/crypto/tibe/vss_ibe.go:Encrypt", "internal/crypto/tibe/vss_ibe.go:Decrypt", "internal/crypto/tibe/aes.go:aesEncrypt", "internal/crypto/tibe/aes.go:aesDecrypt"]}
{"id": "C27", "title": "Decrypting consumes the cipher", "statement": "User expectation: Decrypt does not change the Cipher passed to it. The code decrypts in place, so the bytes of c.Encrypted after a successful Decrypt are the IV followed by the plaintext, and decrypting the same Cipher again is a different operation; Copy protects against this.", "quantifier": "every key and cipher", "why_tests_cant": "aliasing effect on all inputs", "anchors": ["internal/crypto/tibe/aes.go:aesDecrypt", "internal/crypto/tibe/vss_ibe.go:Decrypt", "internal/crypto/tibe/vss_ibe.go:Copy"]}
{"id": "C28", "title": "Enough valid votes for one identity reconstruct exactly that identity's key", "statement": "If every vote is the holder's vote for the same id and the first t=Threshold() votes have distinct indices, ReconstructDecrypter returns the same key as the owner's Decrypter(id), whichever nodes vote and in whichever order.", "quantifier": "every polynomial, id, every list of votes with distinct indices (any int64 index)", "why_tests_cant": "all subsets and orders", "anchors": ["internal/crypto/tibe/vss_ibe.go:ReconstructDecrypter", "internal/crypto/tibe/scheme2.go:reconstructSecretIbeKey", "internal/crypto/tibe/poly.go:newLagrangeIndexMultiplier"]}
{"id": "C29", "title": "ReconstructDecrypter's threshold is degree+2, one more than necessary", "statement": "With fewer than len(coefs)+1 votes (degree+2) the call fails; user expectation (config documentation: threshold = degree+1) that degree+1 valid votes suffice is false although degree+1 votes determine the key.", "quantifier": "every polynomial and every vote list of length degree+1", "why_tests_cant": "all polynomials", "anchors": ["internal/crypto/tibe/exponent_poly.go:Threshold", "internal/crypto/tibe/vss_ibe.go:ReconstructDecrypter", "config/config.go:CreateSystemConfigs"]}
{"id": "C30", "title": "Invalid votes and duplicate votes are rejected", "statement": "ReconstructDecrypter returns an error if any supplied vote is not the correct vote of its index for its stated id, if there are too few votes, if the node is unknown, or if the first t votes contain a repeated index; ValidateVote accepts exactly the correct votes.", "quantifier": "every list of votes with arbitrary indices, ids and group elements", "why_tests_cant": "all vote lists", "anchors": ["internal/crypto/tibe/vss_ibe.go:ReconstructDecrypter", "internal/crypto/tibe/vss_ibe.go:ValidateVote", "internal/crypto/tibe/util.go:isValidSignature"]}
{"id": "C31", "title": "Votes for different identities are combined without complaint", "statement": "User expectation: a successful ReconstructDecrypter yields a usable key for an identity. Since ids are not compared, valid votes for two different ids are accepted and give a key that belongs to neither in general.", "quantifier": "refutation plus exact value returned for all vote lists", "why_tests_cant": "all vote lists", "anchors": ["internal/crypto/tibe/scheme2.go:reconstructSecretIbeKey"]}
{"id": "C32", "title": "Threshold publishing: what one player hides any t honest votes reveal", "statement": "For players built from the shares of one polynomial of degree t-1 with >= t distinct public keys, every player computes the same shared key g^{P(0)}; Hide by any player followed by Reveal by any player with >= t votes (first t distinct) on that id returns the message; Verify accepts exactly the correct votes.", "quantifier": "every polynomial, t, player set, id, message, randomness and vote selection", "why_tests_cant": "all subsets", "anchors": ["internal/crypto/tibe/scheme2.go:NewPublisher", "internal/crypto/tibe/scheme2.go:Hide", "internal/crypto/tibe/scheme2.go:Reveal", "internal/crypto/tibe/scheme2.go:Verify"]}
{"id": "C33", "title": "Reveal with a wrong vote gives garbage, not an error", "statement": "User expectation: Reveal reports failure if a vote is invalid. Reveal neither verifies votes nor authenticates the ciphertext: with t distinct indices it always succeeds, and one wrong vote changes the key used.", "quantifier": "every wrong vote", "why_tests_cant": "all vote lists", "anchors": ["internal/crypto/tibe/scheme2.go:Reveal", "internal/crypto/tibe/scheme2.go:decrypt"]}
{"id": "C34", "title": "NewPublisher with one public key too few silently uses the identity as shared key", "statement": "User expectation: NewPublisher with fewer than threshold public keys fails. It fails for <= threshold-2 keys, but with exactly threshold-1 distinct non-zero indices it succeeds and the shared public key is the group identity, so the hiding key is the same publicly known value for every secret.", "quantifier": "every threshold >= 2 and every set of threshold-1 keys", "why_tests_cant": "all thresholds", "anchors": ["internal/crypto/tibe/scheme2.go:NewPublisher", "internal/crypto/tibe/scheme2.go:computeSharedPubkey"]}
{"id": "C35", "title": "Key material codecs round-trip", "statement": "SetBytes(Marshal(x)) = x for polynomials, exponent polynomials, shares and public keys with index in [0,2^32), master public keys and ciphers; SetBytes rejects every byte string whose length does not match its coefficient count; indices outside [0,2^32) come back reduced mod 2^32. SetBytes accepts exactly the byte strings of the right length whose elements all decode, and then yields these elements.", "quantifier": "every value and every byte string", "why_tests_cant": "all values", "anchors": ["internal/crypto/tibe/poly.go:Marshal", "internal/crypto/tibe/poly.go:SetBytes", "internal/crypto/tibe/exponent_poly.go:Marshal", "internal/crypto/tibe/exponent_poly.go:SetBytes", "internal/crypto/tibe/scheme2.go:PublicKey", "internal/crypto/tibe/vss_ibe.go:Cipher"]}
{"id": "C36", "title": "Generated configurations work together", "statement": "For every system produced by CreateSystemConfigs: any node's EncryptFor(host j) is decrypted by host j's Decrypter; the votes of any degree+2 other nodes let any node rebuild host j's key; publishers created from the server configs all share one key and can Hide/Reveal with threshold votes.", "quantifier": "every number of servers with distinct names, degree, random polynomials, message, id", "why_tests_cant": "all sizes and polynomials", "anchors": ["config/config.go:createConfigs", "config/config.go:CreateTIBENode", "config/config.go:CreateTIBEPublisher", "config/config.go:DKGSetup"]}
{"id": "C37", "title": "Merkle proofs of genuine elements verify", "statement": "For every array of 1..2^64 elements and every non-empty set of positions inside it, Prove succeeds and Verify accepts the elements at those positions with that proof against the tree's root; Prove fails for positions outside.", "quantifier": "every array, hash function, and multiset of positions in any order", "why_tests_cant": "all sizes and subsets", "anchors": ["internal/crypto/merklearray/merkle.go:Build", "internal/crypto/merklearray/merkle.go:Prove", "internal/crypto/merklearray/merkle.go:Verify", "internal/crypto/merklearray/partial.go:up"]}
{"id": "C38", "title": "A verified element is the committed one, up to hash collisions", "statement": "If Verify accepts a set of elements at positions against the root of an array, with any proof, then each position is in range and each element's encoding equals that of the array there, unless a collision or an all-zero digest of the hash function is exhibited, or one of the encodings involved is exactly two digests (64 bytes) long.", "quantifier": "every array, position, element, proof (adversarial), and hash function with 32-byte output", "why_tests_cant": "all proofs", "anchors": ["internal/crypto/merklearray/merkle.go:Verify", "internal/crypto/merklearray/layer.go:pair"]}
{"id": "C39", "title": "Leaves and inner nodes are not domain separated", "statement": "User expectation (the HashID type): an inner node can never be passed off as a leaf. For every hash function and every array of at least two elements, none of them 64 bytes long, there is a 64-byte element, not in the array, that Verify accepts at position 0 with an empty proof.", "quantifier": "every hash function, every pair of leaves", "why_tests_cant": "holds for all hash functions", "anchors": ["internal/crypto/util.go:hashRep", "internal/crypto/merklearray/layer.go:ToBeHashed"]}
{"id": "C40", "title": "merkleSign gives every item a certificate that verifies", "statement": "After merkleSign(items, sk) on items without certificates every item carries a certificate (root, path, index, signature) whose path verifies for that item and whose signature verifies under sk's public key. An item that already carried a certificate is hashed together with it, so re-signing it produces a certificate that does not verify (up to a hash collision).", "quantifier": "every non-empty list of items and every key", "why_tests_cant": "all lengths", "anchors": ["rrpc/verifiables.go:merkleSign", "rrpc/merkle_verifier.go:authenticateMerklePath"]}
{"id": "C41", "title": "Accepted certificates have a valid path and a root signed under some key the verifier was asked about", "statement": "In every interleaving of concurrent Verify calls and cache cleanups, a call returns nil only if its Merkle path is valid and some Verify call for the same root (this one or an earlier/concurrent one) carried a signature valid for that root under that call's key; the object's certificate is restored in every case.", "quantifier": "every set of concurrent calls, every schedule, every cleanup time", "why_tests_cant": "all schedules", "anchors": ["rrpc/merkle_verifier.go:Verify", "rrpc/merkle_verifier.go:verifyMerkleSig"]}
{"id": "C42", "title": "When all calls for a root agree on key and signature, Verify is exact", "statement": "If every Verify call mentioning a root uses one and the same key and signature, then in every interleaving each call returns nil iff its path is valid and that signature is valid.", "quantifier": "every schedule under that condition", "why_tests_cant": "all schedules", "anchors": ["rrpc/merkle_verifier.go:Verify"]}
{"id": "C43", "title": "The verifier cache ignores the key and signature", "statement": "User expectation: Verify(pk, obj) = nil implies pk signed obj's root. After one successful Verify for a root, Verify with any other key and any signature (even empty) for the same root succeeds until the next cleanup.", "quantifier": "every key, signature and object", "why_tests_cant": "needs a stateful counterexample no test builds", "anchors": ["rrpc/merkle_verifier.go:Verify", "rrpc/rrpc_server_stream.go:validateParcel"]}
{"id": "C44", "title": "A valid certificate can be rejected because of someone else's bad one", "statement": "User expectation: Verify never rejects a valid certificate. There is an interleaving in which a call with a valid path and valid signature returns a bad-signature error because a concurrent call for the same root carried a bad signature.", "quantifier": "exhibited schedule", "why_tests_cant": "race", "anchors": ["rrpc/merkle_verifier.go:Verify"]}
{"id": "C45", "title": "Erasure coding round-trips with any missing shards up to the parity", "statement": "For every message (including empty) AuthEncode succeeds and AuthReconstruct(shards', len) returns the message whenever at least numShards shards survive in every chunk (the others nil), whatever the order in which workers answer.", "quantifier": "every message length, erasure pattern and completion order", "why_tests_cant": "all lengths and patterns", "anchors": ["internal/ecc/reedsolomon.go:AuthEncode", "internal/ecc/reedsolomon.go:AuthReconstruct"]}
{"id": "C46", "title": "Too few shards are reported, never silently decoded", "statement": "If some chunk has fewer than numShards shards, AuthReconstruct returns an error.", "quantifier": "every erasure pattern and completion order", "why_tests_cant": "all patterns", "anchors": ["internal/ecc/reedsolomon.go:AuthReconstruct"]}
{"id": "C47", "title": "Quorum arithmetic of the robust call", "statement": "RobustRequest decides after at most n responses, whatever their order: it succeeds as soon as n-(tau-1) valid ones arrived iff at most tau-1 of the n are errors, and otherwise returns the tau-th error; the number of responses it returns equals the number of data shards of the code.", "quantifier": "every n, tau with 1<=tau<=n, every sequence of responses", "why_tests_cant": "all orders", "anchors": ["rrpc/coordinator.go:RobustRequest", "rrpc/coordinator.go:NewCoordinator", "rrpc/network_data.go:MinimalRelayedParcels", "rrpc/network_data.go:MaxErrors"]}
{"id": "C48", "title": "Relay indices agree on all machines", "statement": "For every configuration, whatever the order its servers are listed in, Servers() is the sorted list and GetRelayIndex(a) for a configured address a is an index i with Servers()[i]=a (the unique one if addresses are distinct); invalid entries are ignored; key and host lookups are mutually inverse for distinct keys and hosts.", "quantifier": "every configuration and every permutation of it", "why_tests_cant": "all configurations", "anchors": ["rrpc/network_data.go:NewNetworkData", "rrpc/network_data.go:GetRelayIndex", "rrpc/network_data.go:GetHostname"]}
{"id": "C49", "title": "A robust call executes the handler exactly once when each relay forwards once", "statement": "If the parcels of a call (one per relay, any subset of at least n-(tau-1), any order, arbitrarily interleaved with other calls' parcels) reach the server and no expiry intervenes, the handler is run exactly once for it, with parcels of that call only, provided n > 2(tau-1); with tau = n/2 (the configured value) this always holds.", "quantifier": "every n, tau, arrival order and interleaving with other calls", "why_tests_cant": "all orders", "anchors": ["rrpc/rrpc_server_stream.go:collector", "rrpc/rrpc_server_stream.go:getOrCreateTask", "config/config.go:CreateCoordinator"]}
{"id": "C50", "title": "One relay can spoil a robust call by repeating its parcel", "statement": "User expectation: a robust call survives any tau-1 faulty relays. The collector counts parcels, not relays: repeating one parcel fills the quota with a single shard index, and reconstruction then fails whenever more than one data shard is needed.", "quantifier": "every n, tau with quota >= 2", "why_tests_cant": "adversarial schedule", "anchors": ["rrpc/rrpc_server_stream.go:collector", "rrpc/rrpc_server_stream.go:reconstructParcels"]}
{"id": "C51", "title": "A robust call returns the handler's reply despite tau-1 silent or failing relays", "statement": "If at least n-(tau-1) relays forward faithfully in both directions and the server's response buffer is fresh, RobustCall's reply is the decoded reply of the handler applied to the decoded request, for every choice and order of the surviving relays.", "quantifier": "every request, handler, surviving set, order", "why_tests_cant": "all subsets", "anchors": ["rrpc/client.go:RobustCall", "rrpc/client.go:requestIntoRobust", "rrpc/client.go:reconstruct", "rrpc/rrpc_server_stream.go:runTask"]}
{"id": "C52", "title": "Pooled response buffers leak earlier replies", "statement": "User expectation: the reply of a robust call is the handler's reply for that call. Response buffers are returned to the pool without being reset, so a call served with a reused buffer sends the earlier reply followed by the new one, and the client decodes the earlier reply.", "quantifier": "every pair of successive replies", "why_tests_cant": "depends on pool behaviour across calls", "anchors": ["rrpc/rrpc_server_stream.go:prepareCallResponse"]}
{"id": "C53", "title": "Responses are not authenticated beyond their note", "statement": "User expectation: a corrupt relay cannot alter a reply unnoticed. The receiver signature covers only the exchange note: replacing payload, message length or relay index in a response leaves validateRrpcResponse's verdict unchanged. Every byte of a reply is carried by one relay, given by the reply's length and the byte's position, which by overwriting it in its own piece makes the client return the reply with exactly that byte changed.", "quantifier": "every response and every replacement", "why_tests_cant": "adversarial inputs", "anchors": ["rrpc/verifiables.go:CallStreamResponse", "rrpc/coordinator.go:validateRrpcResponse"]}
{"id": "C54", "title": "Method names are parsed unambiguously", "statement": "For every non-empty service name without leading slash and every method name without slash, both \"/svc/m\" and \"svc/m\" resolve to (svc, m); a name resolves iff after dropping one leading slash it contains a slash; lookup succeeds iff service and method are registered, else InvalidArgument.", "quantifier": "every string", "why_tests_cant": "all strings", "anchors": ["rrpc/services.go:extractMethodInfo", "rrpc/services.go:getServiceAndMethodDesc"]}
{"id": "C55", "title": "A request object serves one call", "statement": "User expectation: reusing a Request with new Args sends the new Args and fills Reply with the new answer. pack and unpack are cached: after the first completed call every later call with the same object sends the first call's bytes and leaves Reply unchanged.", "quantifier": "every sequence of argument changes and replies", "why_tests_cant": "stateful misuse", "anchors": ["rrpc/requests.go:pack", "rrpc/requests.go:unpack"]}
{"id": "C56", "title": "Each direct call is completed at most once, by its own response or a timeout", "statement": "In every history of calls, responses (unknown and duplicate ids included) and cleanups, a response completes at most one call, only the one registered under its id, and only after it was registered; calls with distinct pending ids never receive each other's replies.", "quantifier": "every history", "why_tests_cant": "all histories", "anchors": ["rrpc/client.go:AsyncDirectCall", "rrpc/client.go:VerifyAndDispatch", "rrpc/gc.go:cleanmapAccordingToTTL"]}
{"id": "C57", "title": "Two pending direct calls with one id: the first never completes", "statement": "User expectation: every direct call eventually returns or times out. If a call is issued while another with the same id is pending, the first is dropped from the table: no response and no timeout ever completes it.", "quantifier": "every later history", "why_tests_cant": "liveness over all futures", "anchors": ["rrpc/client.go:AsyncDirectCall", "sender.go:createRRPCRequest"]}
{"id": "C58", "title": "Expiry honours age only for values that expose it", "statement": "A cleanup pass deletes exactly the entries older than the ttl, after notifying them, if the stored values expose their age; values that do not (relay tasks are stored by value, so their pointer methods are invisible) are deleted at every pass without notification, and robust requests, whose start time is never set, are timed out at the first pass whatever their age.", "quantifier": "every table content and time", "why_tests_cant": "all contents", "anchors": ["rrpc/gc.go:cleanmapAccordingToTTL", "rrpc/relay.go:relaytask", "rrpc/net_conns.go:relayConnRequest"]}
{"id": "C59", "title": "A robust call to an unknown method kills the relays", "statement": "User expectation: calling an unregistered method yields an InvalidArgument error. The server's error response carries no note and the relay that receives it dereferences the note: every relay that receives such a response panics.", "quantifier": "every parcel with an unregistered method", "why_tests_cant": "crash path not covered", "anchors": ["rrpc/rrpc_server_stream.go:collector", "rrpc/relay.go:relaySetup"]}
{"id": "C60", "title": "Message cache survives restarts only if the write completed", "statement": "LoadOrCreateMessages called again with the same (round, numClients) returns exactly the pairs returned the first time; user expectation that a crash during the first call is harmless is false: a partially written file makes every later call fail.", "quantifier": "every crash point and every later call", "why_tests_cant": "crash points", "anchors": ["messages.go:LoadOrCreateMessages", "messages.go:loadMessages"]}
{"id": "C61", "title": "The mix network delivers exactly the clients' messages", "statement": "For a whole system of n servers and L layers running one round under any schedule of handlers, workers, shuffles, senders and deliveries: if GetMessages returns for the last-layer mix of chain c, the result is a permutation of exactly the messages whose onions were sent into chain c, and no server crashes, provided the clients follow the protocol (batches of onions of the chain, sent as GENESIS to the chain's first mix, at most as many as announced).", "quantifier": "every number of servers, layers, clients, batching, and every interleaving", "why_tests_cant": "end-to-end over all schedules", "anchors": ["server.go:AddMessages", "mixer.go:Mixers", "sender.go:worker", "messages.go:generateOnion"]}
{"id": "C62", "title": "Overlapping Verify calls on one object can strip its certificate", "statement": "User expectation: Verify leaves the object as it was. If two Verify calls on the same object overlap, one can answer 'empty certificate' for a valid object, and after both returned the object's certificate field can be nil for good.", "quantifier": "every object with a valid certificate, every key", "why_tests_cant": "needs one particular interleaving of two goroutines", "anchors": ["rrpc/merkle_verifier.go:Verify", "rrpc/verifiables.go:popCert", "rrpc/verifiables.go:pushCert"]}
{"id": "C63", "title": "Every Verify call returns", "statement": "With any number of concurrent Verify calls, keys, bad signatures and cache cleanups, the calls made so far take only a bounded number of steps (the retry recursion ends), and while one of them has not returned some step is possible.", "quantifier": "every reachable state of every interleaving", "why_tests_cant": "termination of a recursion driven by other goroutines' failures", "anchors": ["rrpc/merkle_verifier.go:Verify", "rrpc/merkle_verifier.go:merkleVerificationWorker"]}
{"id": "C64", "title": "Reusing a call id mixes the parcels of two calls", "statement": "User expectation: every run of a handler works on the parcels of one call. Parcels are grouped by call id alone, and the parcels of a finished call that were not needed stay in the table until they expire: a second call with the same id within that time runs the handler on the first call's leftovers together with its own first parcels, on a payload that nobody sent.", "quantifier": "every quota, every number of leftovers, every order of other events", "why_tests_cant": "needs a particular history with expiry timing", "anchors": ["rrpc/rrpc_server_stream.go:collector", "rrpc/rrpc_server_stream.go:getOrCreateTask"]}
{"id": "C65", "title": "The sender's note is checked under the receiver's key", "statement": "User expectation: an honestly signed parcel is accepted at any time. The server verifies the sender's signature on the note under the receiver's public key; honest parcels pass only because the root was cached by the check of the parcel just before, and are rejected if a cache cleanup falls between the two checks.", "quantifier": "every honestly signed list of parcels, every cache state", "why_tests_cant": "needs a cleanup between two consecutive lines", "anchors": ["rrpc/rrpc_server_stream.go:validateParcel", "rrpc/merkle_verifier.go:Verify", "rrpc/merkle_verifier.go:Verify"]}
{"id": "C66", "title": "A response that meets an expiring call crashes the client", "statement": "User expectation: no response, early or late, crashes the client. If a response arrives when the cleanup has already picked the call as expired, the response completes the call and closes its channel, and the cleanup's notification then panics (send on closed channel). Without an expiry or a failed send the client never crashes.", "quantifier": "every history of calls, responses and cleanups", "why_tests_cant": "needs one interleaving of receiver and cleanup", "anchors": ["rrpc/client.go:VerifyAndDispatch", "rrpc/client.go:PrepareForDeletion", "rrpc/gc.go:cleanmapAccordingToTTL"]}
{"id": "C67", "title": "A failed send stops the client for good", "statement": "User expectation: after a call fails because the stream could not send it, other calls go on. The call's entry stays in the table, so a response with its id blocks the receiving goroutine for ever (no later call completes with a response), and otherwise its expiry blocks the cleanup for ever (no later call times out).", "quantifier": "every later history", "why_tests_cant": "liveness over all futures", "anchors": ["rrpc/client.go:setServerStream", "rrpc/client.go:VerifyAndDispatch", "rrpc/client.go:PrepareForDeletion"]}
{"id": "C68", "title": "What a direct-call stream runs and answers", "statement": "A request on a direct-call stream runs its handler, once, on its call id and payload, exactly if its method is registered, its note names the stream's client as sender and the note's certificate verifies; answers go out in the order of the requests; the first request that gets no answer ends the stream, and whatever was pipelined behind it is neither run nor answered. A client's own request is always accepted, and the client gets the handler's result or error.", "quantifier": "every sequence of requests, cache contents and handler results", "why_tests_cant": "all request sequences", "anchors": ["rrpc/server.go:DirectCall", "rrpc/server.go:intoDirectCallResponse", "rrpc/client.go:VerifyAndDispatch", "rrpc/client.go:setServerStream"]}
{"id": "C69", "title": "A note authorises any direct call", "statement": "User expectation: a server runs only the calls a client made, and a client gets only what the server returned. Only the note is signed: with one note of a client (also one from a robust call, which every relay sees) anyone who claims the client's address has any registered method run on any payload in the client's name; and a response whose payload was replaced or removed on its way is accepted.", "quantifier": "every note, method, payload and response", "why_tests_cant": "adversarial inputs", "anchors": ["rrpc/server.go:DirectCall", "rrpc/peer.go:getPeerFromContext", "rrpc/verifiables.go:senderNote", "rrpc/client.go:VerifyAndDispatch"]}
{"id": "C70", "title": "Responses reach the relays in order", "statement": "In every schedule of the server's goroutines in which no send to a relay fails: each relay gets exactly the responses made for it, first in first out, none twice; the server does not crash; and if all relays are connected everything under way is written after a bounded number of steps.", "quantifier": "every number of relays and calls, every interleaving", "why_tests_cant": "all schedules of senders and writers", "anchors": ["rrpc/rrpc_server_stream.go:sendTo", "rrpc/rrpc_server_stream.go:CallStream", "rrpc/rrpc_server_stream.go:collector"]}
{"id": "C71", "title": "One silent relay stops the server after 100 calls", "statement": "User expectation: a server tolerates relays that never connect. Each call's goroutine sends to the relays in index order over channels of capacity 100; if relay i never connects, at most 100 calls ever have a response accepted for a relay with a higher index, so (when i is below the quorum) at most 100 calls ever get a quorum of responses.", "quantifier": "every run in which relay i never connects", "why_tests_cant": "needs a long run and a bound over all schedules", "anchors": ["rrpc/rrpc_server_stream.go:sendTo", "rrpc/rrpc_server_stream.go:collector", "rrpc/rrpc_server_stream.go:newStreams"]}
{"id": "C72", "title": "A relay that disconnects crashes the server", "statement": "User expectation: a server survives the loss of a relay. When a send to a relay's stream fails its channel is closed for good; the next goroutine with a response for that relay panics (send on closed channel), and no call started afterwards ever finishes sending its responses.", "quantifier": "every later history", "why_tests_cant": "needs failure timing, all futures", "anchors": ["rrpc/rrpc_server_stream.go:removeAt", "rrpc/rrpc_server_stream.go:sendTo", "rrpc/rrpc_server_stream.go:CallStream"]}
{"id": "C73", "title": "A relay answers each request at most once, to the client that made it", "statement": "In every schedule of a relay's goroutines: a client is written at most as many responses with a call id as it had requests accepted with that id, and at most as many errors as it had requests refused; responses are written in the order in which they were passed on, which is a subsequence of those that came from the servers; and a response whose id is noted for a connected client is written to it after finitely many steps, whatever was queued before.", "quantifier": "every history of requests, responses, disconnections and interleavings of the relay", "why_tests_cant": "all schedules", "anchors": ["rrpc/relay.go:RelayStream", "rrpc/relay.go:Incoming", "rrpc/coordinator.go:AsyncSend"]}
{"id": "C74", "title": "A relay loses a response that is early, or whose id another client uses", "statement": "User expectation: a response to an accepted request reaches its client. The relay sends the request before it notes whose it is: a last response that arrives in between is lost for everybody. And a request of another client with the same id takes over the entry: the first client's call gets no answer.", "quantifier": "every history with such an interleaving", "why_tests_cant": "needs a particular schedule and all continuations", "anchors": ["rrpc/relay.go:RelayStream", "rrpc/relay.go:Incoming"]}
{"id": "C75", "title": "A client that leaves with 102 calls under way stops a relay for all clients", "statement": "User expectation: clients are independent. A client that disconnects with 102 calls under way fills the channel of its stream, which nobody empties any more; the one goroutine that hands out responses blocks on it, and from then on no response of any server is passed on to any client.", "quantifier": "every state of the relay, every continuation", "why_tests_cant": "needs a long run and all continuations", "anchors": ["rrpc/relay.go:Incoming", "rrpc/relay.go:RelayStream"]}
{"id": "C76", "title": "One malformed message crashes its receiver", "statement": "User expectation: malformed messages are rejected. Decoding the responses of a robust call panics exactly if one of them has no body, a relay index outside the relays or fewer than 36 pieces, or the first has fewer than 4 length bytes; none of this is covered by the checks, so a single relay can make it happen to a client; and any client can sign parcels that a server accepts and that make it panic as soon as a quorum of them arrived.", "quantifier": "every set of responses or parcels, every verifier cache", "why_tests_cant": "exact characterisation over all messages", "anchors": ["rrpc/client.go:reconstruct", "rrpc/rrpc_server_stream.go:runTask", "rrpc/ecc_packing.go:PutIntoShards", "internal/ecc/reedsolomon.go:AuthReconstruct", "rrpc/rrpc_server_stream.go:validateParcel"]}
{"id": "C77", "title": "Dial hides failures", "statement": "If every connection can be made, Dial connects to every server and returns nil. User expectation otherwise: Dial returns an error. When a connection cannot be made it returns nil as soon as closing the connections made so far went well, with the coordinator closed; a later Close panics; and a server whose call stream cannot be opened is stored as a nil connection: Dial returns nil and the next send to that server panics.", "quantifier": "every network configuration and every pattern of failures", "why_tests_cant": "all failure patterns", "anchors": ["rrpc/coordinator.go:Dial", "rrpc/coordinator.go:Close", "rrpc/coordinator.go:AsyncSend", "rrpc/net_conns.go:newServerConn"]}
{"id": "C78", "title": "Closing a coordinator with a response in flight crashes", "statement": "Until Close, responses of the servers come out of the coordinator's channel in the order they were put in, each connection's in its order, none lost or repeated. User expectation: Close is safe. A connection goroutine that holds a response when Close is called can then only panic (send on closed channel); Close is safe exactly if no connection holds or receives a response.", "quantifier": "every interleaving of connections, reader and Close", "why_tests_cant": "all schedules", "anchors": ["rrpc/coordinator.go:Close", "rrpc/net_conns.go:ServerConn"]}
{"id": "C79", "title": "A broken server connection stops a relay's clients", "statement": "Requests to one server go out in order, each at most once. User expectation: a broken server costs only the calls to it. After the sending loop of a server connection ended, at most 100 requests more are accepted for that server; the next client with such a request is blocked in it for ever, and all its later requests, to any server, are never read.", "quantifier": "every history of requests and failures", "why_tests_cant": "needs a long run and all continuations", "anchors": ["rrpc/net_conns.go:ServerConn", "rrpc/coordinator.go:AsyncSend", "rrpc/relay.go:RelayStream"]}
{"id": "C80", "title": "A relay's responses to a robust call, and the cleanup that blocks a connection", "statement": "As long as the periodic cleanup of a relay connection meets no call under way, every relay gives each robust call at most one response, whatever is repeated on the wire and whichever ids calls have, and a received response never has to wait. User expectation: that holds always. The cleanup takes every entry as expired (C58) and sends a notice into the call's channel, also if the response is being delivered at the same time; with two messages per relay and a call that returned after a quorum, the channel stays full and the receiving (or cleanup) goroutine of that relay connection is blocked for ever: no later response of that relay, to any call, is received. And what the cleanup dropped is gone: an answer that comes after it to a call still waiting is ignored.", "quantifier": "every interleaving of calls, connections and cleanups, any number of relays and calls", "why_tests_cant": "all schedules", "anchors": ["rrpc/net_conns.go:receiveParcels", "rrpc/net_conns.go:PrepareForDeletion", "rrpc/gc.go:", "rrpc/coordinator.go:RobustRequest"]}
{"id": "C81", "title": "One broken relay connection ends a client's robust calls", "statement": "User expectation: a robust call tolerates a faulty relay. When the stream to relay j fails once with an EOF the goroutine that sends to it ends; requests for it are still queued, so of the calls made afterwards at most 100 ever return, with success, error or cancellation: every further call stays, before it looks at its context, in the middle of handing out its requests.", "quantifier": "every history after such a failure, any number of relays and calls", "why_tests_cant": "needs a long run and all continuations", "anchors": ["rrpc/net_conns.go:parcelStream", "rrpc/net_conns.go:sendRequest", "rrpc/coordinator.go:RobustRequest"]}
{"id": "C82", "title": "The mix network completes every fully sent chain", "statement": "For a round opened with the same workload at all servers and honest clients that send at most what they announced: for given client calls the servers perform only finitely many steps, however scheduled; they can always go on until nothing is left to do; and then, if no call was lost and the round was not ended, GetMessages returns for the last mix of every chain into which all announced messages (at least one) were sent, with exactly those messages. (A chain announced with 0 messages never answers: C10.)", "quantifier": "every number of servers, layers, clients, batching, and every interleaving", "why_tests_cant": "termination and completeness over all schedules of a distributed system", "anchors": ["server.go:AddMessages", "server.go:GetMessages", "mixer.go:Mixers", "sender.go:worker"]}
{"id": "C83", "title": "Altered ciphers are rejected", "statement": "Decrypt accepts a cipher only if its MAC matches the group element and the encrypted bytes under the derived key: changing the MAC alone always leads to rejection, and, unless the MACs computed by the two calls collide, changing the group element or any encrypted byte (or using a key that derives another hash) does, with any decryption key.", "quantifier": "every cipher, alteration and key", "why_tests_cant": "all alterations and keys", "anchors": ["internal/crypto/tibe/vss_ibe.go:Decrypt", "internal/crypto/tibe/vss_ibe.go:Encrypt", "internal/crypto/tibe/util.go:mac"]}
{"id": "C84", "title": "A generated deployment delivers end to end", "statement": "Take any deployment made by the configuration generator with distinct addresses: servers that build their keys from their own configuration, and clients whose message generator takes the public keys from the system configuration. Every message has an onion along every chain, and when clients send such onions to the first mix of their chain, at most as many as announced, GetMessages of the last mix of a chain returns exactly the messages whose onions were sent into it; it does return once nothing is left to do if everything announced (at least one) was sent and nothing was lost.", "quantifier": "every number of servers and layers, threshold, key polynomials, round, messages, random choices, batching and schedule", "why_tests_cant": "the tests run one deployment with one schedule; key generation, encryption, codecs and mixing must fit for all", "anchors": ["config/config.go:CreateSystemConfigs", "config/config.go:CreateTIBENode", "messages.go:NewMessageGenerator", "messages.go:generateOnion", "messages.go:onionWrap", "mixer.go:Mixers", "server.go:GetMessages"]}
{"id": "C85", "title": "The workflow of a round: what is collected is what clients wrote", "statement": "A user who generates onions, groups them by first mix, opens the round at every server with the sizes of the groups, sends each group to its first mix and collects all last mixes gets exactly the clients' messages, each as often as it has onions. User expectation: this always works. The chains are chosen by hashing, and when some chain got no onion at all every NewRound of that workflow is refused (FailedPrecondition); otherwise every server opens the round, and such a complete execution exists.", "quantifier": "every deployment, set of messages, random choices and schedule", "why_tests_cant": "all assignments of messages to chains and all schedules", "anchors": ["messages.go:GroupOnionsByMixName", "messages.go:generateOnions", "messages.go:AllOnions", "server.go:NewRound", "server.go:AddMessages", "server.go:GetMessages"]}
{"id": "C86", "title": "Key generation uses a constant seed: keys are fresh within a process and public across processes", "statement": "Within one process, no random draw is used twice for the polynomials of DKG and verifiable secret sharing: their coefficients are, in the order of the calls, the consecutive scalars of one stream. User expectation: master secrets are unpredictable. The stream is seeded with a constant of the source code, so two processes that generate systems of the same sizes get the same secrets whatever the addresses: a server of one decrypts what is encrypted for its namesake by number in the other, and anybody who knows the number of servers, the degree, the public topology and the round opens every onion completely.", "quantifier": "every history of key set-ups, number of servers, degree, addresses, onions and random choices of clients", "why_tests_cant": "a test cannot tell a reproducible secret from a fresh one, nor range over all histories", "anchors": ["config/config.go:randomReader", "config/config.go:DKGSetup", "config/config.go:vsspolynomialsSetup", "config/config.go:CreateSystemConfigs", "internal/crypto/tibe/poly.go:NewRandomPoly", "messages.go:onionWrap"]}
{"id": "C87", "title": "A closed or broken direct connection strands its calls", "statement": "User expectation: closing a client, or losing its connection, ends the direct calls under way with an error. Instead Close only cancels: the three goroutines that serve the client return without completing anything, and from then on no direct call ever returns (neither one under way nor a later one; no timeout either), and at most ten more asynchronous ones are accepted before they block too. When the stream itself ends (bad request, server restart) the receiving goroutine returns and nothing reopens the stream: no later call returns with a response, although calls can still time out. Calls that do return keep the guarantees of direct calls.", "quantifier": "every history of calls, responses, timeouts, closes and broken streams, and every schedule of the goroutines", "why_tests_cant": "all interleavings of several goroutines and callers; never returning is not testable", "anchors": ["rrpc/client.go:Close", "rrpc/client.go:setServerStream", "rrpc/client.go:AsyncDirectCall", "rrpc/client.go:DirectCall", "rrpc/gc.go:foreverCleanup"]}
{"id": "C88", "title": "Concurrent rounds do not mix their messages, but one can stop the other", "statement": "Servers work on any number of rounds at the same time. What GetMessages of a round answers is exactly what the clients of that round sent, whatever happens in other rounds (dishonest clients, EndRound, crashes, losses). If all rounds are honest no server crashes. A round with which nothing went wrong completes by its own steps, without waiting for other rounds. User expectation: rounds whose clients and servers all follow the protocol complete. Instead, when two rounds have outputs of the same mix for the same host under way at the same time, the DirectCall of one replaces the entry of the other (the uuid does not contain the round), the sender of the other waits for ever, and its round never completes.", "quantifier": "every topology, set of rounds, batching, schedule and behaviour of the other rounds", "why_tests_cant": "all interleavings of all servers, senders, handlers and rounds", "anchors": ["server.go:NewRound", "server.go:AddMessages", "server.go:GetMessages", "sender.go:worker", "mixer.go:Mixers", "rrpc/client.go:AsyncDirectCall"]}
{"id": "C89", "title": "The verifier's workers: bounded queue, and Stop strands calls", "statement": "With at least one worker, and until Stop is called, every Verify call returns although the task queue is bounded and the workers are few: the calls made so far take a bounded number of steps and never block each other for good; answers are those of the verifier with an unlimited queue. User expectation: after Stop, calls fail. Instead workers just return: calls whose certificate was not checked by then, and all later calls on objects that carry a certificate, block for ever; the same holds from the start for a verifier made with no workers.", "quantifier": "every number of workers, calls, keys, objects, and every interleaving of calls, workers, cleaner and Stop", "why_tests_cant": "all interleavings around a bounded channel; blocking for ever cannot be observed", "anchors": ["rrpc/merkle_verifier.go:NewVerifier", "rrpc/merkle_verifier.go:merkleVerificationWorker", "rrpc/merkle_verifier.go:Stop", "rrpc/merkle_verifier.go:Verify"]}
{"id": "C90", "title": "The erasure coder's workers", "statement": "Any number of concurrent AuthEncode and AuthReconstruct calls share one encoder, its workers and two bounded queues. Every call returns what it would return alone, whatever the others do (so what one call encoded, another decodes from enough shards, and too few shards never decode), or, if Stop is called meanwhile, the error that says so; with at least one worker no call waits for ever, the calls and workers take at most 145 steps per call, a worker never waits to hand over an answer, and after Stop every running call can return at once. Only an AuthReconstruct call with a negative size or fewer than 36 chunks brings the program down.", "quantifier": "every number of workers and calls, all arguments, every interleaving of calls, workers and Stop", "why_tests_cant": "all interleavings around bounded channels; absence of deadlock and of lost answers", "anchors": ["internal/ecc/reedsolomon.go:AuthEncode", "internal/ecc/reedsolomon.go:AuthReconstruct", "internal/ecc/reedsolomon.go:worker", "internal/ecc/reedsolomon.go:Stop", "internal/ecc/reedsolomon.go:NewRSEncoderDecoder"]}
{"id": "C91", "title": "The erasure coder and the memory of its arguments", "statement": "User expectation: AuthEncode and AuthReconstruct only read their arguments. AuthEncode encodes the bytes it is given and leaves them as they are, and when the array behind the argument has fewer than 36 bytes after it, nothing the caller can see changes. But when there are more, it overwrites the 36 bytes after the argument with zeros, so two messages that lie one after the other in a buffer cannot be encoded one after the other (the second loses its first 36 bytes), unless slices with capped capacity are passed. AuthReconstruct fills in the missing shards in the caller's table: after a successful call the table holds all shards of the message, and a second call gives the same message and changes nothing.", "quantifier": "all messages, buffers, positions, capacities, codes and surviving shards", "why_tests_cant": "aliasing: depends on the capacity of the argument; needs all layouts", "anchors": ["internal/ecc/reedsolomon.go:AuthEncode", "internal/ecc/reedsolomon.go:authEncode", "internal/ecc/reedsolomon.go:AuthReconstruct", "internal/ecc/reedsolomon.go:authReconstruct"]}
{"id": "C92", "title": "The life of a mix server: Dial, rounds before it, failures, Close", "statement": "When all peers can be reached, Dial succeeds after any history and everything sent to a peer then goes out; the first Close of a server that dialled succeeds and leaves no connection it knows open. User expectation: a server that is not connected refuses rounds. Instead the check never fails: before Dial, and after a Dial that failed (plain grpc), rounds are accepted, batches for peers whose connection was closed are lost without an error to anybody and batches for the other peers crash the program. With the robust layer an unreachable peer makes Dial itself crash the program. Dialling again leaks the first connections, with plain grpc a second Close is an error, and Close stops at the first error, leaving other connections open.", "quantifier": "every list of peers, configuration, reachability, order of map iteration and history of Dial and Close", "why_tests_cant": "all histories and failure points", "anchors": ["server.go:NewMixServer", "server.go:Dial", "server.go:Close", "server.go:NewRound", "sender.go:worker", "rrpc/interfaces.go:NewConnection", "rrpc/grpc_wrapper.go:newGrpcClient", "rrpc/client.go:newClient"]}
{"id": "C93", "title": "The two signatures of an exchange note", "statement": "User expectation: a note signed by both parties proves the exchange to anybody, in the roles it names. A note its sender signs verifies under the sender's key, one its receiver signs under the receiver's; the sender's signature covers the parties and the call, the receiver's also the sender's certificate (anything else accepted exhibits two strings with the same hash). But once the receiver has signed, the sender's signature on the same note no longer verifies (it does again when the receiver's certificate is taken out), alone or signed in a batch; and nothing says in which role a certificate was given: whoever has a note a party signed as a sender has one that verifies as signed by it as the receiver.", "quantifier": "every hash function, encoding, signature scheme, note, key pair and batch", "why_tests_cant": "holds for every note and hash; the failing combination is never tried", "anchors": ["rrpc/verifiables.go:senderNote", "rrpc/verifiables.go:receiverNote", "rrpc/verifiables.go:prepareForHashing", "rrpc/verifiables.go:merkleSign", "rrpc/client.go:AsyncDirectCall"]}
{"id": "C94", "title": "Stopping an rrpc server", "statement": "After Stop is called a server makes a bounded number of steps, sends nothing more, and ends with Stop returned, or with a crash, or with Stop hanging because the one goroutine that hands out responses waits for a client that left with more than 100 responses outstanding; Stop never returns exactly when that goroutine, or the collector with an error for a relay whose stream failed, is stuck. If all parcels received name known methods and the clients' responses have room, it returns or the process crashes; with no call under way it returns. User expectation: once Stop returned nothing of the server runs. No call is started after that, but handlers of calls started before still run, and with two calls under way the process can crash after Stop returned (a send on a channel closed because the connections were closed); it always does when a call has yet to answer a relay whose channel was closed, unless it gets stuck at an earlier relay.", "quantifier": "every reachable state, number of servers, clients and calls, every schedule", "why_tests_cant": "all schedules around Stop; hanging for ever and late crashes cannot be observed reliably", "anchors": ["rrpc/server.go:Stop", "rrpc/rrpc_server_stream.go:collector", "rrpc/rrpc_server_stream.go:CallStream", "rrpc/relay.go:relaySetup", "rrpc/relay.go:RelayStream"]}
{"id": "C95", "title": "Robust calls in the whole network return unless relays lose the response", "statement": "Clients, relays and servers make any number of concurrent robust calls with different ids, over streams and internal queues of bounded size; any set of processes may stall for ever (with at most 100 calls, or none stalled). Every execution makes a bounded number of steps. When the live processes have nothing left to do, a call has returned exactly if its client, its server and enough relays (the number of answers a call needs) are live and did not lose the call's response; a call that returned has read answers of that many different relays, its handler ran exactly once, on the request, and its result is the handler's reply (behind what the server's pooled buffer contained). A relay loses a response only if it receives it before it has noted who asked, and this can happen to every relay: even in a network in which nothing fails, a call may never return. While one relay stalls, at most 101 calls plus what the transport buffers of any one client return.", "quantifier": "all numbers of relays, calls, clients and servers, all quorum sizes above half, all transport buffer sizes, all interleavings, all sets of stalled processes and moments at which they stall, all message contents", "why_tests_cant": "the bad interleaving needs a response to overtake the relay's own bookkeeping; deadlock freedom and the stall bound range over all schedules of many goroutines in many processes", "anchors": ["rrpc/coordinator.go:RobustRequest", "rrpc/net_conns.go:RelayConn", "rrpc/net_conns.go:ServerConn", "rrpc/relay.go:RelayStream", "rrpc/relay.go:relaySetup", "rrpc/rrpc_server_stream.go:CallStream", "rrpc/rrpc_server_stream.go:collector"]}
{"id": "C96", "title": "A server on the plain gRPC transport answers every call as the rrpc transport would", "statement": "A server given a set of services and the plain gRPC transport starts, whatever the services are and in whatever order the maps are iterated, and answers a call to any method name exactly as the rrpc transport's lookup would: the same handler on the same implementation, or an error for a name that is no method; no handler gets another method's code. For services made from a generated description the handler that runs is the last of that name, and it runs without an interceptor, whatever interceptor the server was configured with (FINDING: configured unary interceptors never run). The channel of an asynchronous plain call yields the call's result once and is closed from then on, and its goroutine ends even if nobody reads.", "quantifier": "all service maps and iteration orders, all method names and requests, all interceptors, all interleavings of goroutine and readers of the result channel", "why_tests_cant": "A test registers a few services and sees one iteration order; that no closure captured the loop's variable must hold for every number of methods and every order", "anchors": ["rrpc/grpc_wrapper.go:newGrpcServer", "rrpc/grpc_wrapper.go:AsyncDirectCall", "rrpc/services.go:SingleServiceFromGRPCServiceDesc", "rrpc/services.go:getServiceAndMethodDesc"]}
{"id": "C97", "title": "A direct call's handler runs at most once, in send order, and healthy direct calls all return their own answer", "statement": "Over a direct-call stream, a server runs the handler at most once for each call a client made, and handlers run in the order in which the requests were sent. A call that returns with a response gets one with its own id, made by a handler run, and no other call gets that response; if its id is unique, it is the answer of its own handler run. A call that failed with a send error is never run. While no send fails and no call expires, a client and its server make at most six steps per call, and when nothing more can happen every call (with distinct ids) has returned with the answer of its own run. FINDINGS: a call that has timed out may be sent and run afterwards; a call reusing the id of a timed-out call returns with the old call's answer; two pending calls with one id can jam the client for good, however much the stream buffers: no request goes out, no handler runs, no call returns a response.", "quantifier": "all interleavings of callers, sending, receiving and cleanup goroutines, the stream (of any capacity) and the server loop; any number of calls and ids", "why_tests_cant": "The orders in which callers queue, messages move and calls expire are unbounded; the jam needs a particular schedule with full buffers", "anchors": ["rrpc/client.go:DirectCall", "rrpc/client.go:AsyncDirectCall", "rrpc/client.go:setServerStream", "rrpc/client.go:VerifyAndDispatch", "rrpc/server.go:DirectCall"]}
{"id": "C98", "title": "Proofs of direct responses: who publishes what, never blocking, bounded", "statement": "After a direct response has been received, its note is offered as a proof, under the server's name, to every relay connection exactly once and in the order of receipt per client; the only responses not published are those that answer a pending call and whose note does not verify. Publishing never waits for a relay: it takes one step per relay and its return, each always possible. Per relay at most 100 proofs wait; the accepted ones are sent in the order accepted; a proof is dropped only when the connection has been ended or 100 accepted ones have not been sent; nothing is sent after the connection's sending goroutine has returned, which happens only after the connection was ended. When all has settled and nothing was refused every relay has been sent every published proof once. (A response no call waits for is published without any verification; ending a connection loses the proofs waiting in it; a relay that does not read makes the 101st be dropped.)", "quantifier": "all numbers of clients and relays, all messages, all interleavings of clients, senders, failing sends, expiries and ended connections", "why_tests_cant": "Depends on select choices, map iteration order and queue lengths under concurrency.", "anchors": ["rrpc/client.go:client.setServerStream", "rrpc/client.go:client.VerifyAndDispatch", "rrpc/coordinator.go:coordinator.PublishProof", "rrpc/net_conns.go:RelayConn.SendProof", "rrpc/net_conns.go:RelayConn.proofSendingStream"]}
{"id": "C99", "title": "Digests and keys as text and bytes", "statement": "The text of a digest has 52 letters of A-Z 2-7, the last of them A or Q; reading it back gives the digest, so different digests (for instance Merkle roots used as keys of the verifier's table) have different texts. Of the strings over the alphabet exactly those of 52 letters are accepted; exactly 16 texts, differing in their last letter, are accepted for each digest, so the text of a digest is not unique. The 64-bit number of a digest is determined by its first eight bytes and determines them; a digest is zero iff all bytes are. Keys decode iff they have the right size, to the same bytes, and are equal iff their bytes are.", "quantifier": "all digests, all strings over the alphabet, all byte strings as keys", "why_tests_cant": "There are 2^256 digests and infinitely many strings.", "anchors": ["internal/crypto/util.go:Digest.String", "internal/crypto/util.go:DigestFromString", "internal/crypto/util.go:Digest.TrimUint64", "internal/crypto/util.go:Digest.IsZero", "internal/crypto/ed25519.go:DecodePKey", "internal/crypto/ed25519.go:DecodeSKey", "internal/crypto/ed25519.go:PublicKey.Equal"]}
{"id": "C100", "title": "Several streams in one relay's name: split responses, and a restarted relay is poisoned", "statement": "User expectation: a relay gets the responses of its calls, also after it reconnected. The responses a server has for a relay go to whichever stream was opened under its address: each to exactly one of them, in order, at most 100 waiting; a stream's writer writes what it received, in order, except for at most one it failed with. The server crashes or closes a relay's channel only if a stream broke. But the address is only claimed: a process that names it can get all the responses while the relay is connected and gets none. And a broken stream leaves its writer behind: it goes on competing for the responses, also with the stream of a relay that has come back; the first response it gets is lost, closes the relay's channel for good, and the next response for that relay crashes the server.", "quantifier": "all numbers of relays and streams, all interleavings of pushes, reconnects, breaks, takes, sends and failures", "why_tests_cant": "Depends on which goroutine receives from a channel, on when connections break and on who connects.", "anchors": ["rrpc/rrpc_server_stream.go:server.CallStream", "rrpc/rrpc_server_stream.go:srvrStreams.sendTo", "rrpc/rrpc_server_stream.go:srvrStreams.removeAt", "rrpc/peer.go:getPeerFromContext"]}
{"id": "C101", "title": "A node's own keys are fixed when it is created", "statement": "NewNode copies the polynomial: whatever the caller does afterwards to the polynomial it passed, to any object or pointer it was ever given, and with any calls, the node's decryption keys are those of the polynomial's secret at creation, its master public key is g to that secret, and every VssShares(k) hands out k shares, with indices 1..k, of that polynomial, with its exponent polynomial and that master key; none of these calls fails. Creating a node fails exactly for a polynomial without coefficients or with a nil one.", "quantifier": "all polynomials, all histories of calls and of writes through every pointer the caller holds", "why_tests_cant": "Any pointer returned anywhere might alias the node's memory; the histories are unbounded.", "anchors": ["internal/crypto/tibe/vss_ibe.go:newShareableIbeScheme", "internal/crypto/tibe/vss_ibe.go:shareableIbeScheme.VssShares", "internal/crypto/tibe/vss_ibe.go:shareableIbeScheme.GetMasterPublicKey", "internal/crypto/tibe/vss_ibe.go:shareableIbeScheme.Decrypter", "internal/crypto/tibe/poly.go:Poly.Copy"]}
{"id": "C102", "title": "Public shares of an exponent polynomial: by reference, and stale after SetBytes", "statement": "User expectation: an exponent polynomial answers with the public shares of the polynomial it holds. The first answer for an index i > 0 is; later answers for i are the same pointer for ever, and their value is what anyone last wrote through it, otherwise the first value, even if SetBytes has given the object another polynomial in the meantime: then VerifyShare(i, x) still accepts exactly the share of the former polynomial, although the object Equals a fresh one of the new polynomial. The share of index 0 is the current first coefficient itself, by reference.", "quantifier": "all exponent polynomials, indices, histories of calls, SetBytes and writes", "why_tests_cant": "Depends on the whole history of an object, including which indices were ever asked for.", "anchors": ["internal/crypto/tibe/exponent_poly.go:ExponentPoly.GetPublicShare", "internal/crypto/tibe/exponent_poly.go:ExponentPoly.SetBytes", "internal/crypto/tibe/exponent_poly.go:ExponentPoly.VerifyShare", "internal/crypto/tibe/exponent_poly.go:ExponentPoly.Equal"]}
{"id": "C103", "title": "Copies of polynomials are independent; equality compares values", "statement": "Only calls and writes that name a polynomial or one of its coefficients change its value. Copy gives a polynomial of the same value none of whose memory was reachable before, so writing to the copy never changes the original and the other way round. Secret, Eval, Coeffs, GetExponentPoly, GetMasterPublicKey and VssShares answer with new memory only. Equal of two (exponent) polynomials holds exactly if they have the same coefficients.", "quantifier": "all polynomials, all histories of calls and writes", "why_tests_cant": "Aliasing shows only in particular histories of writes.", "anchors": ["internal/crypto/tibe/poly.go:Poly.Copy", "internal/crypto/tibe/poly.go:Poly.Coeffs", "internal/crypto/tibe/poly.go:Poly.Secret", "internal/crypto/tibe/poly.go:Poly.Equal", "internal/crypto/tibe/exponent_poly.go:ExponentPoly.Equal", "internal/crypto/tibe/poly.go:Poly.GetExponentPoly"]}
{"id": "C104", "title": "A received share is kept by reference", "statement": "After ReceiveShare(name, share) the node's votes, encryptions and vote checks for that name use the scalar, master key and exponent polynomial it was given, as they are at the time of each call: whatever is written to them later by anyone who shares them shows in the node, and nothing but another ReceiveShare for the name replaces them.", "quantifier": "all nodes, shares, histories of calls and writes after the share was received", "why_tests_cant": "Depends on later writes through pointers held elsewhere.", "anchors": ["internal/crypto/tibe/vss_ibe.go:Node.ReceiveShare", "internal/crypto/tibe/vss_ibe.go:Node.Vote", "internal/crypto/tibe/vss_ibe.go:Node.EncryptFor", "internal/crypto/tibe/vss_ibe.go:Node.ValidateVote"]}
{"id": "C105", "title": "Any d shares of a degree-d polynomial say nothing about the secret", "statement": "For the polynomial that NewRandomPoly(d) builds from d+1 uniformly drawn scalars, and any d or fewer distinct nonzero share indices: whatever is computed from those shares (their values, the votes of their holders, ...), the number of draws that give a certain outcome together with a certain secret is the same for every secret; any k <= d share values go with any secret for exactly |F|^(d-k) polynomials. d+1 shares determine the secret. The public (exponent) polynomial is a different matter: it determines all coefficients, so it hides them only computationally.", "quantifier": "all finite fields of characteristic at least 2^64, all degrees, all sets of at most d distinct nonzero int indices, all functions of the shares, all outcomes, all pairs of secrets", "why_tests_cant": "a test sees single polynomials; equality of the number of polynomials behind a view is a statement about all of them (|F|^(d+1) is about 2^(255(d+1)))", "anchors": ["internal/crypto/tibe/poly.go:NewRandomPoly", "internal/crypto/tibe/poly.go:Eval", "internal/crypto/tibe/poly.go:Secret", "internal/crypto/tibe/poly.go:CreateShares"]}
{"id": "C106", "title": "One honest mix in a chain is enough to unlink messages from senders", "statement": "Take a chain of mixes that process and shuffle onions with ShuffleOnions, where one of them draws its shuffle uniformly and all others use arbitrary random sources. If the same onions enter in two different orders (two senders exchanged), then for anything observed of or computed from the output of the honest mix, equally many of its n! possible draw lists lead to that observation. With the other mixes' sources fixed, every final order of distinct messages comes from exactly one draw list, and each message ends at each place in exactly (n-1)! of the n! cases. (How far the real draws, 32-bit words modulo i, are from uniform: C15.)", "quantifier": "all numbers and orders of onions up to 2^32, all processing functions, all random sources of the other mixes, all positions of the honest mix, all functions of its output", "why_tests_cant": "a statistical property over all draw lists (n! of them) and all behaviours of the other servers; tests sample a few shuffles", "anchors": ["shuffle.go:ShuffleOnions", "shuffle.go:permutation", "shuffle.go:randInt", "mixer.go:shuffleAndSend"]}
{"id": "C107", "title": "A dealer binds itself if receivers verify, but no receiver does", "statement": "If several nodes hold one public polynomial from a dealer and each one's share passes VerifyShare, then, whatever the dealer did, there is exactly one key per identity that every sufficiently large set of their votes reconstructs at each of them, and it decrypts what was encrypted to the identity under the constant term. But ReceiveShare accepts everything (nothing in the code calls VerifyShare): with a wrong share, the holder's votes are rejected by all others and every reconstruction including one fails; with a master key different from the constant term, all votes are valid and the key is reconstructed, yet it does not decrypt what the receiver encrypted (unless hashes collide).", "quantifier": "all public polynomials and shares a dealer may send, all sets of receivers and voters, all identities, messages and random choices", "why_tests_cant": "binding is a statement about every possible dealer; the failures need shares no honest test set-up produces", "anchors": ["internal/crypto/tibe/exponent_poly.go:VerifyShare", "internal/crypto/tibe/vss_ibe.go:ReceiveShare", "internal/crypto/tibe/vss_ibe.go:ReconstructDecrypter", "internal/crypto/tibe/vss_ibe.go:EncryptFor", "internal/crypto/tibe/vss_ibe.go:Vote"]}
{"id": "C108", "title": "The bias of the shuffle is bounded for every number of onions", "statement": "Of the 2^(32 n) answers (n words of 4 bytes) the random source can give to a shuffle of n onions, every order is produced by at least the product of floor(2^32/m) and at most the product of floor(2^32/m)+1 for m = 1..n. Hence any two orders differ in probability by a factor of at most (1+1/q)^n with q = floor(2^32/n).", "quantifier": "all n up to 2^32, all orders, all answers of the random source", "why_tests_cant": "the bias is far too small to be measured, and the number of orders far too large to be enumerated", "anchors": ["shuffle.go:permutation", "shuffle.go:randInt"]}
{"id": "C109", "title": "Hashing, signing and verifying through a shared buffer see only their own object", "statement": "The tree, root and proofs the merkle functions compute for an array, the certificates of a signed array and the verdict of every check a verification worker performs depend only on the objects, keys, signatures and proofs given, never on what the buffer handed in contains or on what the worker checked before, nor on the order in which Verify visits its map; the bytes already in a buffer are not changed. An object that cannot be encoded is hashed as the empty string, so a proof of one such object is accepted for every other.", "quantifier": "every buffer content, array, map of elements and order of visiting it, proof, key, and every history of tasks of a worker", "why_tests_cant": "a test sees buffers with a few contents and one map order; a stale byte would only show for particular histories of tasks", "anchors": ["internal/crypto/util.go:HashObj", "internal/crypto/ed25519.go:OWSign", "internal/crypto/ed25519.go:OWVerify", "rrpc/verifiables.go:prepareForHashing", "rrpc/verifiables.go:merkleSign", "rrpc/merkle_verifier.go:merkleVerificationWorker", "internal/crypto/merklearray/merkle.go:Verify"]}
{"id": "C110", "title": "An onion's length depends only on its message's length and its layer, and mixes preserve the differences", "statement": "Every onion the generator makes has the length of its message plus 152 bytes per layer, and a server that decrypts any byte string returns exactly 152 bytes less; so onions of messages of one length (the generator's 258-byte messages) have one length at every layer. But nothing is padded or checked: the lengths a mix returns are those it was handed less 152, so an onion whose length differs from all others handed to a mix is recognised among the mix's outputs whatever the shuffle, and one that differs from all others sent into its chain is recognised in what GetMessages of the last mix returns, however many mixes are honest.", "quantifier": "every message, chain, number of layers, key and random choice; every byte string given to a server; every schedule and all random draws of every shuffle", "why_tests_cant": "the tests only use messages of one length; that no shuffle hides a different length is a statement about all of them", "anchors": ["messages.go:onionWrap", "messages.go:generateOnion", "internal/crypto/tibe/vss_ibe.go:Encrypt", "internal/crypto/tibe/vss_ibe.go:Decrypt", "mixer.go:NewMixers", "mixer.go:GetMixOutputs"]}
{"id": "C111", "title": "Only the key of its identity opens a cipher; an onion of another round is rejected and crashes the mix that forwards it", "statement": "A cipher made for a master key and an identity with a nonzero scalar is accepted under a decryption key only if that key is the identity's key under the master secret (and then yields the message), unless the hash of the pairing or the MAC collides. So bytes encrypted for a server and a round are rejected by every other server and in every other round, up to such collisions. A rejected onion is not dropped by the mix: it becomes an empty output, and when the mix's outputs are forwarded to the next layer the forwarding goroutine panics.", "quantifier": "every master secret, identity, message, scalar, IV and tried key; every generated deployment, pair of servers, pair of rounds and header; every schedule of the mix and every sender iteration", "why_tests_cant": "that no other key opens a cipher is a statement about all keys; the tests never hand a server an onion of another round", "anchors": ["internal/crypto/tibe/vss_ibe.go:Decrypt", "internal/crypto/tibe/vss_ibe.go:Encrypt", "server.go:computeId", "mixer.go:NewMixers", "sender.go:createRRPCRequest"]}
{"id": "C112", "title": "Nothing recognises a replayed onion: a message comes out as often as its onion was sent", "statement": "A mix returns each decrypted value exactly as often as onions that decrypt to it were among those it was handed; through a whole deployment, whatever the schedule and the shuffles, what GetMessages of a chain's last mix returns contains a message exactly as often as its onion was sent into the chain. Nothing in the code recognises an onion that was already processed.", "quantifier": "every schedule and every shuffle of every mix; every multiset of onions sent; every generated deployment", "why_tests_cant": "the tests never send an onion twice; that no schedule or shuffle removes or adds a copy is a statement about all of them", "anchors": ["mixer.go:AddMessages", "mixer.go:HandleNewInputs", "mixer.go:GetMixOutputs", "server.go:GetMessages"]}
{"id": "C113", "title": "A chain of mixes answers for all its messages or for none; chains do not affect each other", "statement": "With clients that follow the protocol: if GetMessages answers for any mix of a chain, everything announced for the chain was sent into it and no call carrying a batch for that mix or an earlier mix of the chain was lost. So one announced message that is never sent, or one forwarding call that fails (the sender only logs it), and no later mix of the chain ever answers: nobody's message comes out. Chains are independent: a chain whose announced messages were all sent and whose calls were all delivered answers, at every layer and with exactly its messages, whatever was lost or left out on other chains.", "quantifier": "every number of servers, layers, clients and messages, every schedule, every set of lost calls", "why_tests_cant": "the tests never lose a call or leave out a message; that no schedule lets a chain answer then, and that none lets one chain's loss stop another, ranges over all executions", "anchors": ["sender.go:createRRPCRequest", "mixer.go:isDone", "mixer.go:GetMixOutputs", "server.go:GetMessages", "server.go:AddMessages"]}
{"id": "C114", "title": "Signatures survive the transport", "statement": "The codec that is signed distinguishes nil from empty slices, the transport (protobuf) does not. Still, every signature the library makes is accepted where it arrives: the sender's note of a direct call at the server, the server's note at the client, every parcel of a robust call after client, relay and server, with what the client put in, and the response's note on its way back; what arrived once does not change again. It hinges on two things: ids are not empty (an empty id is rejected), and the server signs the note as it arrived (signed before the transport it would be rejected). Nothing is sent when a call id or method is not UTF-8.", "quantifier": "all ids, call ids, methods, arguments, keys, encodings, hash functions and numbers of servers", "why_tests_cant": "depends on how nil and empty fields of every message behave in two encodings; tests use a few fixed messages", "anchors": ["rrpc/verifiables.go:proofIntoBytes", "rrpc/verifiables.go:merkleSign", "rrpc/merkle_verifier.go:unpackMerkleCert", "rrpc/client.go:requestIntoRobust", "rrpc/rrpc_server_stream.go:validateParcel", "rrpc/rrpc_server_stream.go:prepareCallResponse", "rrpc/server.go:DirectCall"]}
{"id": "C115", "title": "Any degree+2 servers together open exactly what every other server opens", "statement": "In every system made by CreateSystemConfigs with distinct addresses and degree d: for every server h and round, the Vote calls of any d+2 distinct servers on h's identity for the round, combined by any server with ReconstructDecrypter, give the decrypter h itself uses, so that for every byte string they obtain exactly what h obtains. Consequences: (a) if at least d+3 servers exist, the servers left open everything a vanished server was sent, without it; (b) any d+2 servers together open every onion of every client from its first layer to the message, whichever servers its chain passes, so that privacy rests on no d+2 servers cooperating, not on one honest mix per chain. With fewer than d+2 votes ReconstructDecrypter returns an error and they open nothing that way. (The recovery that would use this, Mixers.UpdateMixes, panics.)", "quantifier": "every set of addresses, degree, number of layers, key polynomials, map iteration order, server, round, group of servers and order of its votes, onion and message", "why_tests_cant": "it ranges over all groups of servers, all key material and all onions of all depths; a test combines one set of votes for one key", "anchors": ["internal/crypto/tibe/vss_ibe.go:Vote", "internal/crypto/tibe/vss_ibe.go:ReconstructDecrypter", "internal/crypto/tibe/vss_ibe.go:Decrypt", "config/config.go:CreateSystemConfigs", "messages.go:onionWrap", "mixer.go:UpdateMixes"]}
{"id": "C116", "title": "A generated deployment with several rounds at once delivers every round's messages, and only those", "statement": "In every system made by CreateSystemConfigs, with any number of rounds open at the same time: if a round is opened once by every server and its clients send onions generated for this round, no more than announced, then whatever GetMessages of the round answers for the last mix of a chain is exactly (as a multiset) the messages whose onions were sent into that chain in that round, whatever happens in the other rounds (dishonest clients, EndRound, crashes, losses) and although the servers use one master secret for all rounds. If nothing went wrong with the round it finishes by the servers' steps for this round alone, and then GetMessages answers with them. If the clients of all rounds follow the protocol no server crashes.", "quantifier": "every generated system, key polynomials, number of rounds, workloads, clients' random choices, messages, batching, histories of other rounds and schedules", "why_tests_cant": "it joins key set-up, onion encryption, decryption per round identity, mixing, forwarding and round tables under every interleaving of several rounds", "anchors": ["config/config.go:CreateSystemConfigs", "messages.go:onionWrap", "server.go:NewRound", "server.go:AddMessages", "server.go:GetMessages", "mixer.go:AddMessages", "sender.go:worker"]}
{"id": "C117", "title": "One relay decides which method a robust call runs", "statement": "User expectation: with up to tau-1 faulty relays a robust call runs the method the client named. Parcels are checked under the key of whoever they name as the sender, and the server takes the method and the note of the first parcel of a call that arrives: a relay that passes its piece on in a parcel it signed itself, first, has any registered method run, once, on the client's request; the client's call succeeds with that method's reply, and the receipts it accepts name the relay as the sender. Whoever signed the other parcels and whatever methods these name makes no difference.", "quantifier": "every number of relays and threshold with n > 2(tau-1), request, pair of methods, faulty relay, surviving set and order of the others, cache state", "why_tests_cant": "adversarial inputs over all requests and orders", "anchors": ["rrpc/rrpc_server_stream.go:validateParcel", "rrpc/rrpc_server_stream.go:getOrCreateTask", "rrpc/rrpc_server_stream.go:CallStream", "rrpc/coordinator.go:validateRrpcResponse"]}
{"id": "C118", "title": "One relay can change the bytes of a request it carries", "statement": "User expectation: a faulty relay cannot alter a request unnoticed. Every byte of a request is carried by one relay, given by the request's length and the byte's position; overwriting it in its own piece and signing the parcel itself, that relay (knowing nothing else) makes the server run the handler on the request with exactly that byte changed, whenever the parcels that arrive are those of the relays that carry the data; the client's call succeeds with the reply to the changed request.", "quantifier": "every length, position, new byte, request, order of arrival, cache state and erasure code", "why_tests_cant": "adversarial inputs, all positions and orders", "anchors": ["rrpc/rrpc_server_stream.go:validateParcel", "rrpc/rrpc_server_stream.go:reconstructParcels", "internal/ecc/reedsolomon.go:AuthReconstruct", "rrpc/ecc_packing.go:PutIntoShards"]}
{"id": "C119", "title": "A request made without any key crashes a server; a missing field crashes a relay, server or client", "statement": "User expectation: requests that are not properly signed are refused. A robust request is verified under the identity written in it, and ed25519 verification panics on a key that does not have 32 bytes. Exactly these requests crash a server: a missing parcel; one for the right relay without a note; one whose sender identity does not have 32 bytes and whose certificate, for a root not accepted before, contains the path of the parcel; one accepted so far whose receiver identity does the same with the note's certificate. Such a certificate needs no secret, even if no signature at all is valid, and an honest relay passes the request on for any caller that names a configured address. Requests with all fields and 32-byte identities never crash the server here; each is given to the collector or refused, and only roots signed under a 32-byte key are remembered. A relay is crashed exactly by a request with a missing field (of a configured caller), by a call of Attest, or by empty metadata; a client by a direct response without a note. Direct requests cannot crash the server that way.", "quantifier": "every sequence of requests on a stream, present or missing fields, identities of any length, certificates, caches, networks and connections", "why_tests_cant": "the crashing inputs are a set of shapes outside what a well-behaved client ever sends, and the safety half ranges over all contents, certificates and orders", "anchors": ["rrpc/rrpc_server_stream.go:CallStream", "rrpc/rrpc_server_stream.go:validateParcel", "rrpc/merkle_verifier.go:Verify", "internal/crypto/ed25519.go:OWVerify", "rrpc/relay.go:RelayStream", "rrpc/relay.go:Attest", "rrpc/client.go:VerifyAndDispatch", "rrpc/server.go:DirectCall"]}
{"id": "C120", "title": "A parcel counts for at most one run of a handler, whatever expires; but a replayed call runs again", "statement": "In every history of a server's collector - other calls, repeated parcels, expiry at any time - the runs of a robust call use exactly the quorum q of its parcels each, in order of arrival, and no parcel twice. So n relays that bring at most r parcels of the call each cause at most n*r/q runs, and with the network's quorum relays that do not repeat parcels cause at most one. User expectation: a call that was answered cannot be run again by who saw it. But when the parcels of a run come again (once nothing of the call is pending) the handler runs again on the same request, parcels accepted once are accepted again as long as the verifier remembers what it did then, and a direct request that comes k times runs k times.", "quantifier": "every history of parcels and expiry ticks, every quorum, number of relays and of repetitions; every genuine direct request and cache", "why_tests_cant": "repetitions, losses and expiry interleave without bound, and the absence of replay protection is a statement about all later histories", "anchors": ["rrpc/rrpc_server_stream.go:collector", "rrpc/rrpc_server_stream.go:getOrCreateTask", "rrpc/rrpc_server_stream.go:validateParcel", "rrpc/server.go:DirectCall"]}
{"id": "C121", "title": "An error text that is not UTF-8 loses the call, and in a robust call stops the server", "statement": "User expectation: whatever error a handler returns, its caller gets an error and the server goes on. With all connections up this holds when the texts of all errors are UTF-8: no send of a response fails and the server does not crash, and a direct caller gets the handler's code and text. But when the text of a handler's error is not UTF-8: in a direct call the handler has run, the caller gets no response and the client's stream ends with all later requests; in a robust call no relay is ever sent a response, the writer of every relay ends and closes its channel, and from then on every response of the server to any call (results of other handlers too) cannot be handed to a relay, but panics the server.", "quantifier": "every handler error text, every number of relays, every schedule of writers and responders and every later call; every direct stream before and after the call", "why_tests_cant": "the crash is at a later, unrelated response and depends on the schedule of the writers; the positive half is about all texts and schedules", "anchors": ["rrpc/rrpc_server_stream.go:erroToCallStreamResponseArray", "rrpc/rrpc_server_stream.go:CallStream", "rrpc/server.go:errToRpcErr", "rrpc/server.go:DirectCall"]}
{"id": "C122", "title": "An error status with code OK is taken as success, without a signature", "statement": "User expectation: a robust call counts only responses signed by the server, and a call whose handler failed does not return nil. The exact rule is: a response counts iff its note is certified and there is no error status, or its first error status has the code OK - then nothing about it is checked. So any relay can have an unsigned response counted; if such a response without a body is among the quorum, the client panics instead of returning an error. A handler that returns an error with code OK makes the client of a robust call panic and a direct call return nil with Reply unchanged. With any other code the call fails with exactly the handler's code and text, and with the codes the library itself uses the verdicts are those of the properties about signed responses.", "quantifier": "every response, signature scheme, cache, arrival order, threshold, handler error and reply", "why_tests_cant": "tests never return OK as an error; the exact rule ranges over all responses and the panic over all arrival orders", "anchors": ["rrpc/coordinator.go:validateRrpcResponse", "rrpc/client.go:VerifyAndDispatch", "rrpc/client.go:reconstruct", "rrpc/server.go:errToRpcErr"]}
{"id": "C123", "title": "One robust call with a method name or id that is not UTF-8 ends all robust calls of the client", "statement": "With relays and connections up, and all method names and call ids UTF-8, no send to a relay fails and no stream to a relay ends. User expectation: a call that cannot be sent fails alone. But a robust call whose method name or id is not UTF-8 is sent to no relay and gets no response; when its requests have been taken the stream to every relay is finished, and of the robust calls made afterwards, to whichever server, none is sent to any relay, none gets a response (they can only read the cleanup's timeouts), and at most 101 return at all.", "quantifier": "every number of relays, every history of calls before and after, every interleaving of callers, senders, receivers and cleanups", "why_tests_cant": "the damage is to later calls through all connections and ranges over all interleavings", "anchors": ["rrpc/net_conns.go:parcelStream", "rrpc/net_conns.go:receiveParcels", "rrpc/net_conns.go:sendRequest", "rrpc/client.go:requestIntoRobust", "rrpc/coordinator.go:RobustRequest"]}
{"id": "C124", "title": "One direct call with a method name or id that is not UTF-8 ends the client's direct calls to that server", "statement": "With server and connection up, and all method names and call ids UTF-8, no send of a direct call fails. User expectation: a call that cannot be sent fails alone. But a direct call whose method name or id is not UTF-8 is not sent and its handler never runs, and once its send has failed no later direct call of the client to this server is sent, no handler runs for one, and a later call with a fresh id returns nothing but an error: the next one in the queue can get the error of its own send, the others too or a timeout.", "quantifier": "every history of calls, sends, handler runs, responses, timeouts and cleanups before and after the failure, every ttl and stream capacity", "why_tests_cant": "the damage is to all later calls and ranges over all interleavings", "anchors": ["rrpc/client.go:setServerStream", "rrpc/client.go:AsyncDirectCall", "rrpc/client.go:VerifyAndDispatch"]}
{"id": "C125", "title": "The shared map answers every call by the last write to its key, for every interleaving", "statement": "For goroutines that use the typed methods of msync.Map: Load, LoadAndDelete and LoadOrStore return the value last written under the key and not removed since, or the zero value and false if there is none (LoadOrStore then writes its own); none of them panics. A written value is taken by at most one LoadAndDelete, at most one of several LoadOrStore creates the entry, and until it is overwritten or removed all of them get the same value. A Range calls its function for no key twice, for every key present from its beginning to its end (unless told to stop), and with values the key had during the Range. But the embedded sync.Map is exported: after a value of another type, or a nil interface value, was stored, the next typed read of the key panics.", "quantifier": "every key and value type, every number of goroutines, every interleaving of calls and of Ranges, every key and value", "why_tests_cant": "A test sees a few schedules of a few goroutines; every component of the system relies on this map for all of them", "anchors": ["internal/msync/map.go:Map.Load", "internal/msync/map.go:Map.Store", "internal/msync/map.go:Map.Delete", "internal/msync/map.go:Map.Range", "internal/msync/map.go:Map.LoadAndDelete", "internal/msync/map.go:Map.LoadOrStore"]}
{"id": "C126", "title": "The cleanup removes exactly the expired entries that nobody touches, but may remove a young one that replaced an expired one", "statement": "While other goroutines use the map in any way: an entry that is there when a pass of the cleanup begins and that nobody else writes or removes until it ends is looked at exactly once; it is unchanged afterwards if its age was below the limit when looked at, and gone otherwise. The cleanup deletes a key only after having met under it, in this pass, a value that had expired or has no age. But the deletion does not check the value: a young value stored under the key between the look and the deletion is lost; what is deleted has expired unless another goroutine touched its key during the pass.", "quantifier": "every map, every age of every entry, every time limit, every interleaving of other goroutines' calls with the pass", "why_tests_cant": "A test cannot place another goroutine's call between any two steps of the cleanup for all contents of the map", "anchors": ["rrpc/gc.go:cleanmapAccordingToTTL", "internal/msync/map.go:Map"]}
{"id": "C127", "title": "The random number helpers are exact: no bias, no truncation, no value without randomness", "statement": "RandUint64 returns each 64-bit number for exactly one of the 2^64 answers of the random source; RandUint63 returns only numbers below 2^63 (so they fit an int64 unchanged), each for exactly two answers; RandBytes returns the source's answer in the whole buffer whatever was in it. If the source fails, none of them returns.", "quantifier": "all answers of the random source, all numbers, all buffers", "why_tests_cant": "Uniformity is a statement on all 2^64 answers; tests only see a few random ones", "anchors": ["internal/crypto/rand.go:RandUint64", "internal/crypto/rand.go:RandUint63", "internal/crypto/rand.go:RandBytes"]}
