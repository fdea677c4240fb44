(** Model of the server's streams back to its relays: rrpc/rrpc_server_stream.go:14-39 (srvrStreams), the
    writer goroutine of CallStream (56-63) and the goroutines that send responses with sendTo: CallStream
    (76, one response to its own relay), the collector (144, likewise) and one goroutine per finished task
    (159-176, one response to each relay in order 0, 1, ...).

    [n] is the number of servers.  Responses are opaque.  A label records what happens.  Not modelled: the
    end of a CallStream handler (only stream.Send failing matters to its writer), stopping the server (Model/ServerStop.v). *)
From stdpp Require Import gmap.
From Verif.Base Require Import Base.

Section streams.
Context {R : Type} (n : nat).

(** 14-27: channels of capacity 100; how many writer goroutines range over each; the goroutines that
    send: the next index and the responses left. *)
Record sst := mkSst {
  bufs : gmap nat (list R);
  closed : gset nat;
  writers : gmap nat nat;
  jobs : gmap nat (nat * list R);
  crashed : bool }.
Definition cap : nat := 100.
Definition buf (s : sst) (i : nat) : list R := default [] (bufs s !! i).
Definition nwriters (s : sst) (i : nat) : nat := default 0 (writers s !! i).
(** 18-27 newStreams *)
Definition sinit : sst := mkSst ∅ ∅ ∅ ∅ false.

Inductive slabel :=
| SStart (j i : nat) (rs : list R)   (* a goroutine starts sending rs to relays i, i+1, ... *)
| SPush (j i : nat) (r : R)          (* sendTo(i, r) completes *)
| SConnect (i : nat)                 (* CallStream opens for relay i *)
| SWrite (i : nat) (r : R)           (* stream.Send(r) succeeds *)
| SFail (i : nat)                    (* stream.Send fails; the channel is closed *)
| SExit (i : nat)                    (* range over a closed empty channel ends *)
| SPanic.

Inductive sstep : slabel → sst → sst → Prop :=
| ss_start s j i rs : crashed s = false → jobs s !! j = None → i + length rs ≤ n →
    sstep (SStart j i rs) s (mkSst (bufs s) (closed s) (writers s) (<[j := (i, rs)]> (jobs s)) false)
(** 29-31 *)
| ss_push s j i r rs : crashed s = false → jobs s !! j = Some (i, r :: rs) → i ∉ closed s → length (buf s i) < cap →
    sstep (SPush j i r) s (mkSst (<[i := buf s i ++ [r]]> (bufs s)) (closed s) (writers s) (<[j := (S i, rs)]> (jobs s)) false)
| ss_push_panic s j i r rs : crashed s = false → jobs s !! j = Some (i, r :: rs) → i ∈ closed s →
    sstep SPanic s (mkSst (bufs s) (closed s) (writers s) (jobs s) true)
| ss_connect s i : crashed s = false → i < n →
    sstep (SConnect i) s (mkSst (bufs s) (closed s) (<[i := S (nwriters s i)]> (writers s)) (jobs s) false)
(** 57-58 *)
| ss_write s i r b w : crashed s = false → nwriters s i = S w → buf s i = r :: b →
    sstep (SWrite i r) s (mkSst (<[i := b]> (bufs s)) (closed s) (writers s) (jobs s) false)
(** 58-61 and 37-39: close panics on a closed channel *)
| ss_fail s i r b w : crashed s = false → nwriters s i = S w → buf s i = r :: b → i ∉ closed s →
    sstep (SFail i) s (mkSst (<[i := b]> (bufs s)) ({[i]} ∪ closed s) (<[i := w]> (writers s)) (jobs s) false)
| ss_fail_panic s i r b w : crashed s = false → nwriters s i = S w → buf s i = r :: b → i ∈ closed s →
    sstep SPanic s (mkSst (<[i := b]> (bufs s)) (closed s) (writers s) (jobs s) true)
(** 57 *)
| ss_exit s i w : crashed s = false → nwriters s i = S w → buf s i = [] → i ∈ closed s →
    sstep (SExit i) s (mkSst (bufs s) (closed s) (<[i := w]> (writers s)) (jobs s) false).

Inductive ssteps : list slabel → sst → sst → Prop :=
| ss_nil s : ssteps [] s s
| ss_snoc ls l s1 s2 s3 : ssteps ls s1 s2 → sstep l s2 s3 → ssteps (ls ++ [l]) s1 s3.
End streams.
Arguments sst : clear implicits.
Arguments slabel : clear implicits.
