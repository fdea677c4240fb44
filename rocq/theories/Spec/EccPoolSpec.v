(** Vocabulary for C90. *)
From stdpp Require Import gmap.
From Verif.Base Require Import Base.
From Verif.Model Require Import Ecc EccPool.

Section spec.
Context (c : rs_code).

(** What a call returns when it is the only one and its 36 tasks are answered in order. *)
Definition alone (j : job) : answer :=
  match j with
  | JEncode data => AEncode (AuthEncode c data (Some <$> seq 0 36))
  | JDecode shards n => ADecode (AuthReconstruct c shards n (Some <$> seq 0 36))
  end.

(** A history of one encoder. *)
Definition ran (cpus : nat) (ls : list elabel) (s : estate) : Prop := esteps c cpus (NewRSEncoderDecoder cpus) ls s.

(** Call k has returned a; call k has not returned. *)
Definition returned (s : estate) (k : nat) (a : answer) : Prop := ∃ x, e_calls s !! k = Some x ∧ ec_pc x = PDone a.
Definition running (s : estate) (k : nat) : Prop := ∃ x, e_calls s !! k = Some x ∧ ∀ a, ec_pc x ≠ PDone a.

(** Arguments with which AuthReconstruct panics. *)
Definition bad_job (j : job) : Prop :=
  match j with JEncode _ => False | JDecode shards n => (n < 0)%Z ∨ length shards < 36 end.

Definition is_work (l : elabel) : bool := match l with LWork => true | _ => false end.
Definition is_new (l : elabel) : bool := match l with LNew _ _ => true | _ => false end.
(** How many steps of calls and workers, and how many new calls. *)
Definition works (ls : list elabel) : nat := length (filter is_work ls).
Definition news (ls : list elabel) : nat := length (filter is_new ls).
End spec.
