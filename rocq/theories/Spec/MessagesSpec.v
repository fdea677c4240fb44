(** Vocabulary for the message-generator properties. *)
From stdpp Require Import gmap.
From Verif.Base Require Import Base.
From Verif.Model Require Import Topology Onion.

(** The mixes of a chain, first layer first. *)
Definition chain_mixes (t : topology) (chain : nat) : list LogicalMix :=
  omap (λ row, row !! chain) (tp_layers t).

(** Following the headers: the onion names the first of the mixes; what that mix's host obtains by
    decrypting it names the second; ...; after the last mix, [msg] is obtained. *)
Fixpoint delivers (t : topology) (peel : string → onion → option bytes)
    (mixes : list LogicalMix) (o : onion) (msg : bytes) : Prop :=
  match mixes with
  | [] => o = msg
  | m :: ms =>
      ExtractMixConfig t o = Some m ∧
      ∃ o', peel (mx_host m) o = Some o' ∧ delivers t peel ms o' msg
  end.
