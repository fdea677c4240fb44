(** Vocabulary for the properties of a whole generated deployment. *)
From stdpp Require Import gmap.
From Verif.Base Require Import Base.
From Verif.Model Require Import Topology Shuffle Onion Mixer Rounds Messages System.
From Verif.Model Require Tibe TibeCodec KeyConfig Deployment.
From Verif.Spec Require Import MixerSpec MessagesSpec SystemSpec.

Section spec.
(** The pairing groups and library codecs. *)
Context {St : Tibe.setting} (cd : TibeCodec.element_codecs (ssralg.GRing.Field.sort (Tibe.sF St)) (ssralg.GRing.Lmodule.sort (Tibe.sG1 St))).

(** CreateSystemConfigs was called with distinct addresses, degree d and L layers and drew the
    polynomials [dkg] and [polys]; [nodes h] is the node server h made from its configuration;
    [mpks] are the keys of a message generator made from the system configuration.  Maps are visited
    in unknown orders. *)
Definition generated_system (addrs : list string) (d L : nat) dkg polys (t : topology)
    (nodes : string → Tibe.node St) (mpks : gmap string (Deployment.mpk St)) : Prop :=
  NoDup addrs ∧ (Z.of_nat (length addrs) < 2 ^ 32)%Z ∧ (Z.of_nat (S d) < 2 ^ 32)%Z ∧
  length dkg = S d ∧ length polys = length addrs ∧ (∀ p, p ∈ polys → length p = S d) ∧
  CreateCascadeTopology addrs (Z.of_nat L) = Some t ∧
  (∀ j h, addrs !! j = Some h → ∃ order sc, (∀ m, order m ≡ₚ m) ∧
     KeyConfig.server_config_of cd addrs d dkg polys j = Some sc ∧
     KeyConfig.CreateTIBENode cd order sc = Some (nodes h)) ∧
  (∃ order sc0 ks, (∀ m, order m ≡ₚ m) ∧ KeyConfig.server_config_of cd addrs d dkg polys 0 = Some sc0 ∧
     Deployment.generator_keys cd order sc0 = Some ks ∧ mpks = list_to_map ks).

(** What a decryption worker of server h does with an onion of the round (mixer.go:100-108). *)
Definition server_peel (sha3 : string → bytes) (nodes : string → Tibe.node St) (round : Z)
    (h : string) (o : onion) : option (option onion) :=
  c ← cipher_part o; Deployment.DecryptBytes cd (nodes h) (computeId sha3 h round) c.

(** [o] is an onion for message [msg] along chain [i], as the generator makes them (messages.go:236-254),
    for some random choices. *)
Definition generated_onion (sha3 : string → bytes) (t : topology) mpks (round : Z) (i : nat) (o : onion) (msg : bytes) : Prop :=
  ∃ rnd, wrapLayers sha3 (Deployment.EncryptBytes cd) t mpks round i rnd (length (tp_layers t)) msg = Ok o.

(** Clients that follow the protocol: non-empty batches of generated onions to the first mix of their chain. *)
Definition protocol_clients (sha3 : string → bytes) (t : topology) mpks (round : Z) (tr : list ylabel) : Prop :=
  ∀ h rq m, (h, rq) ∈ client_calls tr → m ∈ rq_msgs rq →
    msg_phys m = GenesisName ∧ msg_lsender m = GenesisName ∧ msg_onions m ≠ [] ∧
    ∃ i first, deref t (0, i) = Some first ∧ mx_name first = msg_recv m ∧ mx_host first = h ∧
      ∀ o, o ∈ msg_onions m → ∃ msg, generated_onion sha3 t mpks round i o msg.

(** The user's workflow for a round (system_test.go:38-59): messages with their onions (each along some
    chain; the generator chooses the chains by hashing), grouped by first mix; ... *)
Definition made_pairs sha3 (t : topology) mpks (round : Z) (pairs : list (bytes * list onion)) : Prop :=
  ∀ msg os o, (msg, os) ∈ pairs → o ∈ os →
    ∃ i first, deref t (0, i) = Some first ∧ generated_onion sha3 t mpks round i o msg.
Definition all_onions (pairs : list (bytes * list onion)) : list onion := concat pairs.*2.
(** Every message as often as it has onions. *)
Definition all_messages (pairs : list (bytes * list onion)) : list bytes :=
  concat ((λ p : bytes * list onion, replicate (length p.2) p.1) <$> pairs).
End spec.

(** ... NewRound at every server with the sizes of the groups; ... *)
Definition group_sizes (g : gmap string (list onion)) : gmap string N := (λ os, N.of_nat (length os)) <$> g.
(** ... one AddMessages call per first mix, to its host, with the whole group. *)
Definition start_call (round : Z) (g : gmap string (list onion)) (first : LogicalMix) : string * AddRequest :=
  (mx_host first, mkAddRequest (Z.to_N round)
     [mkMessages (default [] (g !! mx_name first)) GenesisName GenesisName (mx_name first)] "").
Definition first_layer (t : topology) : list LogicalMix := default [] (tp_layers t !! 0).
Definition last_layer (t : topology) : list LogicalMix := default [] (last (tp_layers t)).
Definition every_chain_used (t : topology) (g : gmap string (list onion)) : Prop :=
  ∀ m, m ∈ first_layer t → is_Some (g !! mx_name m).

