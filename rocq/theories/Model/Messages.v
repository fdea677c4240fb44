(** Model of the message generator (messages.go:82-275): onion construction, chain choice, the
    producer goroutines of generateOnions, and the on-disk message cache. *)
From stdpp Require Import gmap.
From Verif.Base Require Import Base.
From Verif.Model Require Import Topology Onion Rounds ChainCount.

(** Go's uint32(x) of a non-negative int. *)
Definition to_uint32 (n : nat) : N := (N.of_nat n mod 2 ^ 32)%N.

Section Generator.
  (** Master public keys, identities (sha3-256 digests of the id string) and encryption randomness;
      [Encrypt mpk id msg r] is serverMasterPublicKey.Encrypt(id[:], msg) followed by cipher.ToBuffer
      (messages.go:88-94): the cipher bytes, or Encrypt's error.  The TIBE files model it. *)
  Context {MPK D R : Type}.
  Context (sha3id : string → D).
  Context (Encrypt : MPK → D → bytes → R → outcome code bytes).
  (** m.SystemConfig.Topology and m.mpks (messages.go:20-24); a missing host gives a nil key. *)
  Context (t : topology) (mpks : gmap string MPK).

  (** messages.go:82-105 onionWrap.  Layers[layer].LogicalMixes[posInLayer] panics out of range, and
      Encrypt on a nil key dereferences it. *)
  Definition onionWrap (round : Z) (layer posInLayer : N) (msg : bytes) (mpk : option MPK) (r : R)
      : outcome code onion :=
    match (row ← tp_layers t !! N.to_nat layer; row !! N.to_nat posInLayer) with
    | None => Panic
    | Some mix =>
        let sname := mx_host mix in
        match mpk with
        | None => Panic
        | Some mpk =>
            let! cipher := Encrypt mpk (computeId sha3id sname round) msg r in
            Ok (attach_header cipher layer posInLayer)
        end
    end.

  (** messages.go:243-250, the loop for one chain, from layer k-1 down to 0.  [rnd i] is the
      randomness used at layer i.  An error of onionWrap becomes a panic (lines 246-248). *)
  Fixpoint wrapLayers (round : Z) (chain : nat) (rnd : nat → R) (k : nat) (onion : bytes)
      : outcome code bytes :=
    match k with
    | O => Ok onion
    | S i =>
        match (row ← tp_layers t !! i; row !! chain) with       (* layers[i].LogicalMixes[chain] *)
        | None => Panic
        | Some currentMix =>
            match onionWrap round (to_uint32 i) (to_uint32 chain) onion
                    (mpks !! mx_host currentMix) (rnd i) with
            | Ok onion => wrapLayers round chain rnd i onion
            | _ => Panic
            end
        end
    end.

  (** messages.go:236-254: one onion per chosen chain, in order. [rnd j i]: randomness of the j-th
      chosen chain at layer i. *)
  Fixpoint wrapChains (round : Z) (msg : bytes) (rnd : nat → nat → R) (j : nat) (chains : list nat)
      : outcome code (list onion) :=
    match chains with
    | [] => Ok []
    | chain :: chains =>
        let! o := wrapLayers round chain (rnd j) (length (tp_layers t)) msg in
        let! os := wrapChains round msg rnd (S j) chains in
        Ok (o :: os)
    end.

  (** sha3.Sum256 on byte strings. *)
  Context (sha3 : bytes → bytes).

  (** messages.go:265, 270: binary.BigEndian.Uint64(current[:]) % uint64(numberOfChains). *)
  Definition row_of (numberOfChains : nat) (current : bytes) : nat :=
    N.to_nat (be_dec (take 8 current) mod N.of_nat numberOfChains)%N.

  (** messages.go:268-272: the loop with k iterations left. *)
  Fixpoint chain_loop (numberOfChains : nat) (k : nat) (current : bytes) : list nat :=
    match k with
    | O => []
    | S k => let current := sha3 current in row_of numberOfChains current :: chain_loop numberOfChains k current
    end.

  (** messages.go:259-275 calculateChain; the remainder by zero panics. *)
  Definition calculateChain (numberOfChains : nat) (randomMsg : bytes) : outcome code (list nat) :=
    let reps := numberOfRepetitions (Z.of_nat numberOfChains) in
    let current := sha3 randomMsg in
    if decide (numberOfChains = 0) then Panic
    else Ok (row_of numberOfChains current
             :: chain_loop numberOfChains (Z.to_nat (reps - 1)) current).

  (** messages.go:228-257 generateOnion. *)
  Definition generateOnion (msg : bytes) (round : Z) (rnd : nat → nat → R) : outcome code (list onion) :=
    match tp_layers t !! 0 with
    | None => Panic
    | Some l0 =>
        let! chosenChains := calculateChain (length l0) msg in
        wrapChains round msg rnd 0 chosenChains
    end.
End Generator.

(** messages.go:126-150: MessageOnionsPairArray with AllOnions (m[0] panics on an empty array; the capacity
    does not matter) and AllMessages. *)
Definition AllOnions (m : list (bytes * list onion)) : outcome code (list onion) :=
  match m with
  | [] => Panic
  | _ => Ok (foldl (λ onions pair, onions ++ pair.2) [] m)
  end.
Definition AllMessages (m : list (bytes * list onion)) : list bytes :=
  foldl (λ msgs pair, msgs ++ [pair.1]) [] m.

(** * generateOnions (messages.go:187-226) *)

(** messages.go:193-205: the quota of goroutine i of N (Go's / truncates). *)
Definition quota (N : nat) (numClients : Z) (i : nat) : Z :=
  let partitionSize := (numClients `quot` Z.of_nat N)%Z in
  if decide (i + 1 = N) then (numClients - Z.of_nat i * partitionSize)%Z else partitionSize.

Section Producers.
  (** The pairs a goroutine can produce: a random message and its onions. *)
  Context {X : Type} (produces : X → Prop).

  (** How many pairs each goroutine still has to send; the channel's buffer; what the collector has
      appended to out. *)
  Record gen_state := mkGen { g_left : list Z; g_chan : list X; g_out : list X }.

  (** messages.go:188-219: make panics for a negative capacity; results has capacity 2*N. *)
  Definition gen_init (N : nat) (numClients : Z) : option gen_state :=
    if decide (numClients < 0)%Z then None
    else Some (mkGen (quota N numClients <$> seq 0 N) [] []).

  (** Interleaved steps: a goroutine sends one pair (lines 208-216), the collector receives one
      (lines 221-223). *)
  Inductive gen_step (N : nat) (numClients : Z) : gen_state → gen_state → Prop :=
  | gen_send i q x s :
      g_left s !! i = Some q → (0 < q)%Z → produces x → length (g_chan s) < 2 * N →
      gen_step N numClients s (mkGen (<[i := (q - 1)%Z]> (g_left s)) (g_chan s ++ [x]) (g_out s))
  | gen_recv x xs s :
      g_chan s = x :: xs → (Z.of_nat (length (g_out s)) < numClients)%Z →
      gen_step N numClients s (mkGen (g_left s) xs (g_out s ++ [x])).

  (** The collector's loop is over and out is returned (lines 221-225). *)
  Definition gen_returned (numClients : Z) (s : gen_state) : Prop :=
    (numClients ≤ Z.of_nat (length (g_out s)))%Z.
End Producers.

(** * The message cache (messages.go:152-185) *)

(** messages.go:17, 153: fmt.Sprintf("%v.round.%v.%v", round, numClients, location). *)
Definition cache_file (numClients round : Z) : string :=
  pretty round +:+ ".round." +:+ pretty numClients +:+ "." +:+ "message.storage".

Section Cache.
  (** json.Marshal / json.Unmarshal of the pairs. *)
  Context {A : Type} (marshal : A → bytes) (unmarshal : bytes → option A).
  (** What generateOnions(numClients, round) can return. *)
  Context (generates : Z → Z → A → Prop).

  (** The directory: file name to content. *)
  Local Notation dir := (gmap string bytes).

  (** How one call of LoadOrCreateMessages ends. *)
  Inductive cache_end :=
  | CReturn (a : A)      (* (pairs, nil) *)
  | CError               (* (nil, err) *)
  | CCrash.              (* the process dies during the call *)

  (** messages.go:152-171 LoadOrCreateMessages and 173-185 loadMessages, one call from directory [d].
      Simplified: os.Stat fails exactly when the file is missing, reading an existing file succeeds,
      and json.Marshal does not fail.  os.WriteFile truncates/creates the file and then writes, so an
      error or a crash leaves the directory unchanged or the file holding some prefix. *)
  Inductive load_or_create (numClients round : Z) (d : dir) : cache_end → dir → Prop :=
  | loc_load content a :                                             (* lines 154-157, 173-184 *)
      d !! cache_file numClients round = Some content → unmarshal content = Some a →
      load_or_create numClients round d (CReturn a) d
  | loc_load_err content :
      d !! cache_file numClients round = Some content → unmarshal content = None →
      load_or_create numClients round d CError d
  | loc_create a :                                                   (* lines 159-170 *)
      d !! cache_file numClients round = None → generates numClients round a →
      load_or_create numClients round d (CReturn a) (<[cache_file numClients round := marshal a]> d)
  | loc_write_fails a p e :                                          (* line 166: err ≠ nil, or crash *)
      d !! cache_file numClients round = None → generates numClients round a →
      p `prefix_of` marshal a → e = CError ∨ e = CCrash →
      load_or_create numClients round d e (<[cache_file numClients round := p]> d)
  | loc_crash_early e :                                              (* before the file is created *)
      (d !! cache_file numClients round = None ∧ (e = CError ∨ e = CCrash)) ∨ e = CCrash →
      load_or_create numClients round d e d.

  (** A history of calls (each with its arguments and how it ended), possibly by successive
      processes. *)
  Inductive cache_history (d : dir) : list (Z * Z * cache_end) → dir → Prop :=
  | ch_nil : cache_history d [] d
  | ch_snoc h n r e d1 d2 :
      cache_history d h d1 → load_or_create n r d1 e d2 →
      cache_history d (h ++ [(n, r, e)]) d2.
End Cache.
