(** Model of rrpc/network_data.go, of the quorum logic of rrpc/coordinator.go and of
    config.ServerConfig.CreateCoordinator. *)
From Coq Require Import Ascii.
From Verif.Base Require Import Base.
From Verif.Model Require Merkle.
From stdpp Require Import gmap sorting.

Local Open Scope string_scope.
Local Open Scope list_scope.

(** Go's order on strings: bytewise lexicographic. *)
Fixpoint str_le (s t : string) : bool :=
  match s, t with
  | "", _ => true
  | String _ _, "" => false
  | String a s, String b t =>
      if (N_of_ascii a <? N_of_ascii b)%N then true
      else if (N_of_ascii b <? N_of_ascii a)%N then false
      else str_le s t
  end.
Definition strle (s t : string) : Prop := str_le s t = true.
Global Instance strle_dec s t : Decision (strle s t).
Proof. unfold strle. apply _. Defined.

(** network_data.go:30-33 ServerData.  A nil key is None. *)
Record ServerData := { sd_address : string; sd_publickey : option bytes }.
(** network_data.go:60-63 NetworkConfig *)
Record NetworkConfig := { nc_tau : Z; nc_servers : list ServerData }.
(** network_data.go:65-73 Network *)
Record Network := { serverAddresses : list string;
                    pkToHost : gmap (list byte) string;
                    hostToPK : gmap string bytes;
                    Tau : Z }.

(** network_data.go:128-130 isvalid *)
Definition isvalid (s : ServerData) : bool :=
  negb (String.eqb (sd_address s) "") && match sd_publickey s with None => false | Some _ => true end.
(** network_data.go:122-126 addServer *)
Definition addServer (n : Network) (s : ServerData) : Network :=
  let pk := default [] (sd_publickey s) in
  {| serverAddresses := serverAddresses n ++ [sd_address s];
     hostToPK := <[sd_address s := pk]> (hostToPK n);
     pkToHost := <[pk := sd_address s]> (pkToHost n);
     Tau := Tau n |}.
(** network_data.go:35-53 NewNetworkData.  sort.Strings returns some sorted permutation; there is only
    one (sorted_perm_unique, proved with the properties), so a merge sort stands for it. *)
Definition NewNetworkData (c : NetworkConfig) : Network :=
  let nt := foldl (λ nt s, if isvalid s then addServer nt s else nt)
              {| serverAddresses := []; pkToHost := ∅; hostToPK := ∅; Tau := nc_tau c |} (nc_servers c) in
  {| serverAddresses := merge_sort strle (serverAddresses nt);
     pkToHost := pkToHost nt; hostToPK := hostToPK nt; Tau := Tau nt |}.

(** sort.Search(n, f): the loop on (i, j); at most j - i iterations. *)
Fixpoint search (fuel : nat) (f : nat → bool) (i j : nat) : nat :=
  match fuel with
  | O => i
  | S fuel => if decide (i < j) then
                let h := (i + j) / 2 in
                if f h then search fuel f i h else search fuel f (h + 1) j
              else i
  end.
(** sort.SearchStrings *)
Definition SearchStrings (a : list string) (x : string) : nat :=
  search (length a) (λ i, match a !! i with Some y => str_le x y | None => true end) 0 (length a).

(** network_data.go:75-120 *)
Definition GetRelayIndex (n : Network) (ip : string) : nat := SearchStrings (serverAddresses n) ip.
Definition Servers (n : Network) : list string := serverAddresses n.
Definition GetPublicKey (n : Network) (h : string) : outcome code bytes :=
  match hostToPK n !! h with Some pk => Ok pk | None => Err NotFound end.
Definition ContainKey (n : Network) (pk : bytes) : bool :=
  match pkToHost n !! pk with Some _ => true | None => false end.
Definition GetHostname (n : Network) (pk : bytes) : string := default "" (pkToHost n !! pk).
Definition MaxErrors (n : Network) : Z := Tau n - 1.
Definition NumServers (n : Network) : Z := Z.of_nat (length (serverAddresses n)).
Definition MinimalRelayedParcels (n : Network) : Z := NumServers n - MaxErrors n.

(** reedsolomon.New (v1.11.3) as its documentation describes it: whether it accepts the two counts. *)
Definition rs_new (dataShards parityShards : Z) : bool :=
  negb ((dataShards <=? 0) || (parityShards <? 0) || (65536 <? dataShards + parityShards))%Z.
(** coordinator.go:71-104 NewCoordinator: the data and parity shards of its code, or a panic. *)
Definition NewCoordinator (n : Network) : outcome code (Z * Z) :=
  let maxErasures := MaxErrors n in
  let numDataShards := (Z.of_nat (length (Servers n)) - maxErasures)%Z in
  if rs_new numDataShards maxErasures then Ok (numDataShards, maxErasures) else Panic.

(** config.go:222-236 CreateCoordinator: its NetworkConfig.  [peers] are (hostname, public key). *)
Definition coordinator_config (peers : list (string * option bytes)) : NetworkConfig :=
  {| nc_tau := Z.of_nat (length peers / 2);
     nc_servers := (λ p, {| sd_address := p.1; sd_publickey := p.2 |}) <$> peers |}.

(** coordinator.go:250-267 Dial (when every connection succeeds): the keys of relayConns. *)
Definition Dial (n : Network) : gset string := list_to_set (Servers n).

Section robust.
Context {R E : Type}.

(** What the select of coordinator.go:188-212 receives: one of the two contexts ended, or a response
    together with the verdict of validateRrpcResponse on it (None: accepted). *)
Inductive rr_event := EvCancel | EvResp (r : R) (verdict : option E).
(** The call has not returned; or returned responses; or returned an error; or panicked. *)
Inductive rr_result :=
| RWaiting
| RDone (out : list R)
| RErr (e : E)
| RCancelled
| RBadRequest
| RPanic.

(** coordinator.go:181-214 *)
Fixpoint rr_loop (n : Network) (evs : list rr_event) (responses : list R) (totalErrors : Z) : rr_result :=
  match evs with
  | [] => RWaiting
  | EvCancel :: _ => RCancelled
  | EvResp r (Some e) :: evs =>
      let totalErrors := (totalErrors + 1)%Z in
      if decide (MaxErrors n < totalErrors)%Z then RErr e else rr_loop n evs responses totalErrors
  | EvResp r None :: evs =>
      let responses := responses ++ [r] in
      if decide (MinimalRelayedParcels n ≤ Z.of_nat (length responses))%Z then RDone responses
      else rr_loop n evs responses totalErrors
  end.

(** coordinator.go:163-216 RobustRequest.  A request is represented by its relay index; [conns] are the
    keys of relayConns; sending is sendRequest (no result).  An index that is negative or too large
    panics at srvrs[...]. *)
Definition RobustRequest (n : Network) (conns : gset string) (requests : list Z) (evs : list rr_event) :
    rr_result :=
  if decide (length requests ≠ size conns) then RBadRequest
  else if decide (requests = []) then RPanic
  else if forallb (λ i, (0 <=? i)%Z && match Servers n !! Z.to_nat i with
                                 | Some a => bool_decide (a ∈ conns) | None => false end) requests
  then rr_loop n evs [] 0
  else RPanic.
End robust.
Arguments rr_event : clear implicits.
Arguments rr_result : clear implicits.
