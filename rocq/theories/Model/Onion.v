(** Model of the onion format and of the grouping functions (messages.go) and of the sender's
    request construction (sender.go). *)
From stdpp Require Import gmap.
From Verif.Base Require Import Base.
From Verif.Model Require Import Topology.

(** messages.go:26 *)
Definition onion := bytes.

(** messages.go:28-34 ExtractMixConfig.  [None] is the panic: slice bounds out of range for fewer
    than 8 bytes, or an index outside Layers / LogicalMixes. *)
Definition onion_header (c : onion) : option (N * N) :=
  if decide (length c < 8) then None
  else let n := length c in
       Some (be_dec (take 4 (drop (n - 8) c)), be_dec (drop (n - 4) c)).

Definition ExtractMixConfig (t : topology) (c : onion) : option LogicalMix :=
  '(layer, posInLayer) ← onion_header c;
  row ← tp_layers t !! N.to_nat layer;
  row !! N.to_nat posInLayer.

(** messages.go:36-43 ExtractCipher: the bytes handed to Cipher.SetBytes; [None] = slice panic.
    (SetBytes itself, and its panic "invalid onion", is modelled in the TIBE files and enters as the
    parameter [parse].) *)
Definition cipher_part (c : onion) : option bytes :=
  if decide (length c < 8) then None else Some (take (length c - 8) c).
Definition ExtractCipher {C} (parse : bytes → option C) (c : onion) : option C :=
  b ← cipher_part c; parse b.

(** messages.go:96-104: header appended to the cipher bytes; arguments are uint32. *)
Definition attach_header (cipher : bytes) (layer posInLayer : N) : onion :=
  cipher ++ be_enc 4 layer ++ be_enc 4 posInLayer.

(** The loop shared by messages.go:45-61 and 63-80: append each onion to the group of its key.
    The panic of ExtractMixConfig aborts. *)
Definition group_step (key : LogicalMix → string) (t : topology)
    (m : option (gmap string (list onion))) (o : onion) : option (gmap string (list onion)) :=
  m ← m;
  mix ← ExtractMixConfig t o;
  Some (<[key mix := default [] (m !! key mix) ++ [o]]> m).

Definition group_by (key : LogicalMix → string) (onions : list onion) (t : topology)
  : option (gmap string (list onion)) :=
  (* numServers := len(topology.Layers[0].LogicalMixes), messages.go:46, 64: panics without layers;
     len(onions)/numServers (line 54, 73) panics only if a layer-0 is empty while an onion is
     grouped, in which case layer 0 has no mix the onion could name -- but an onion may name another
     layer, hence the explicit guard. *)
  l0 ← tp_layers t !! 0;
  if decide (l0 = [] ∧ onions ≠ []) then None
  else foldl (group_step key t) (Some ∅) onions.

Definition GroupOnionsByMixName := group_by mx_name.      (* messages.go:45-61 *)
Definition GroupOnionsByHostname := group_by mx_host.     (* messages.go:63-80 *)

Global Instance LogicalMix_eq_dec : EqDecision LogicalMix.
Proof. solve_decision. Defined.

(** mixnet.proto Messages. *)
Record Messages := mkMessages {
  msg_onions : list onion;
  msg_phys : string;          (* PhysicalSender *)
  msg_lsender : string;       (* LogicalSender *)
  msg_recv : string           (* LogicalReceiver *)
}.

(** rrpc.Request as built by the sender: round, batches, uuid. *)
Record AddRequest := mkAddRequest {
  rq_round : N;
  rq_msgs : list Messages;
  rq_uuid : string
}.

(** fmt.Sprintf("%v", []byte(addr)): "[97 98 99]" (sender.go:83 prints the address as a byte slice). *)
Fixpoint show_bytes_tail (s : string) : string :=
  match s with
  | EmptyString => ""
  | String c s => " " +:+ pretty (Ascii.N_of_ascii c) +:+ show_bytes_tail s
  end.
Definition show_bytes (s : string) : string :=
  match s with
  | EmptyString => "[]"
  | String c s => "[" +:+ pretty (Ascii.N_of_ascii c) +:+ show_bytes_tail s +:+ "]"
  end.

(** sender.go:83 "%v-to-%v:from-%v" *)
Definition request_uuid (address host lsender : string) : string :=
  show_bytes address +:+ "-to-" +:+ host +:+ ":from-" +:+ lsender.

(** sender.go:58-87 createRRPCRequest; the range over the map visits the groups in some order. *)
Definition createRRPCRequest (round : Z) (t : topology) (address : string)
    (onionsByHost : list onion) (lsender host : string) (rq : option AddRequest) : Prop :=
  match GroupOnionsByMixName onionsByHost t with
  | None => rq = None
  | Some mp =>
      ∃ order, order ≡ₚ map_to_list mp ∧
        rq = Some (mkAddRequest (Z.to_N (round mod 2 ^ 32))
               ((λ e, mkMessages e.2 address lsender e.1) <$> order)
               (request_uuid address host lsender))
  end.

(** sender.go:43-56, one iteration of the worker for one mix output: the list of (host, request)
    DirectCalls it makes, in order; [None] = panic (nil or malformed onion). *)
Definition sender_iteration (round : Z) (t : topology) (address : string)
    (out : list onion) (lsender : string) (calls : option (list (string * AddRequest))) : Prop :=
  match GroupOnionsByHostname out t with
  | None => calls = None
  | Some g =>
      ∃ order rqs, order ≡ₚ map_to_list g ∧
        Forall2 (λ e r, createRRPCRequest round t address e.2 lsender e.1 r) order rqs ∧
        calls = (mapM id rqs ≫= λ rs, Some (zip order.*1 rs))
  end.
