(** Vocabulary for stating the mixer properties: functions of a trace (the list of labels of an
    execution) and of the configuration only. *)
From stdpp Require Import gmap.
From Verif.Base Require Import Base.
From Verif.Model Require Import Topology Shuffle Onion Mixer.

Local Open Scope Z_scope.
(** The batches accepted for mix n, in order. *)
Definition batches (n : string) (tr : list label) : list Messages :=
  omap (λ l, match l with LBatch m => if decide (msg_recv m = n) then Some m else None | _ => None end) tr.
(** The onions handed to mix n, in order. *)
Definition handed (n : string) (tr : list label) : list onion := concat (msg_onions <$> batches n tr).
(** Number of onions handed to mix n by the given (physical, logical) sender. *)
Definition received_from (n : string) (k : physName) (tr : list label) : Z :=
  foldr Z.add 0 ((λ m, if decide ((msg_phys m, msg_lsender m) = k)
                       then Z.of_nat (length (msg_onions m)) else 0) <$> batches n tr).


Local Close Scope Z_scope.

(** Number of labels satisfying P. *)
Definition cnt (P : label → bool) (tr : list label) : nat := length (filter P tr).
Definition is_decrypt (n : string) (l : label) : bool :=
  match l with LDecrypt m => bool_decide (m = n) | _ => false end.
Definition is_shuffle (n : string) (l : label) : bool :=
  match l with LShuffle m => bool_decide (m = n) | _ => false end.
Definition is_check (n : string) (l : label) : bool :=
  match l with LCheck m true => bool_decide (m = n) | _ => false end.
Definition is_emit (n : string) (l : label) : bool :=
  match l with LEmit o => bool_decide (mo_sender o = n) | _ => false end.
Definition is_recv (n : string) (l : label) : bool :=
  match l with LRecv o => bool_decide (mo_sender o = n) | _ => false end.


(** Number of onions sent by sender k in a list of batches. *)
Definition sum_from (k : physName) (bs : list Messages) : Z :=
  foldr Z.add 0%Z ((λ m, if decide ((msg_phys m, msg_lsender m) = k)
                       then Z.of_nat (length (msg_onions m)) else 0%Z) <$> bs).
(** All messages handed to AddMessages so far, in call order. *)
Definition added (tr : list label) : list Messages :=
  concat (omap (λ l, match l with LAdd ms => Some ms | _ => None end) tr).
(** All batches accepted so far. *)
Definition allbatches (tr : list label) : list Messages :=
  omap (λ l, match l with LBatch m => Some m | _ => None end) tr.
(** Number of onions in a list of batches; the batches for mix n. *)
Definition total (bs : list Messages) : nat := length (concat (msg_onions <$> bs)).
Definition to_mix (n : string) (bs : list Messages) : list Messages := filter (λ m, msg_recv m = n) bs.

(** Steps the server takes by itself (all but incoming calls). *)
Definition internal (l : label) : bool :=
  match l with LAdd _ | LClose | LCloseTwice => false | _ => true end.


(** The announced workload of mix n. *)
Definition workload_of (w : gmap string Z) (n : string) : Z := default 0%Z (w !! n).

(** The (physical, logical) name under which predecessor p of a mix sends, and how many onions are
    expected from it; the clients send as (GENESIS, GENESIS). *)
Definition sender_of (t : topology) (p : string) : physName :=
  if decide (p = GenesisName) then (GenesisName, GenesisName)
  else (default "" (mx_host <$> GetMix t p), p).
Definition quota (w : gmap string Z) (m : LogicalMix) (p : string) : Z :=
  if decide (p = GenesisName) then workload_of w (mx_name m) else workload_of w p.

(** Every predecessor of m delivered exactly its quota in the batches bs. *)
Definition all_delivered (t : topology) (w : gmap string Z) (m : LogicalMix) (bs : list Messages) : Prop :=
  Forall (λ p, sum_from (sender_of t p) bs = quota w m p) (mx_preds m).
Global Instance all_delivered_dec t w m bs : Decision (all_delivered t w m bs).
Proof. unfold all_delivered. apply _. Defined.

(** How many of the batches, when they arrived, found all quotas met. *)
Definition completing (t : topology) (w : gmap string Z) (m : LogicalMix) (bs : list Messages) : nat :=
  length (filter (λ k, all_delivered t w m (take k bs)) (seq 1 (length bs))).

Section behaviour.
Context (peel : onion → option (option onion)) (workers taskCap outCap : nat).

(** The server has no step of its own left. *)
Definition quiescent (s : mixers) : Prop :=
  ∀ l s', step peel workers taskCap outCap s l s' → internal l = false.

(** Callers of a well-run round: it is not closed meanwhile, messages name mixes hosted here, onions
    can be parsed, and no mix gets more than its workload in total. *)
Definition well_behaved (ms : list LogicalMix) (w : gmap string Z) (tr : list label) : Prop :=
  LClose ∉ tr ∧
  (∀ m, m ∈ added tr → msg_recv m ∈ mx_name <$> ms) ∧
  (∀ m o, m ∈ added tr → o ∈ msg_onions m → peel o ≠ None) ∧
  (∀ n, n ∈ mx_name <$> ms → (Z.of_nat (total (to_mix n (added tr))) ≤ workload_of w n)%Z).

(** One of the three things a caller may do wrong. *)
Definition misbehaved (ms : list LogicalMix) (w : gmap string Z) (tr : list label) : Prop :=
  (∃ m, m ∈ added tr ∧ msg_recv m ∉ mx_name <$> ms) ∨
  (∃ n, n ∈ mx_name <$> ms ∧ (workload_of w n < Z.of_nat (total (to_mix n (added tr))))%Z) ∨
  (∃ m o, m ∈ added tr ∧ o ∈ msg_onions m ∧ peel o = None).
End behaviour.
