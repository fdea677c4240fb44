(** The whole mix network during one round: the Mixers objects of all servers (Model/Mixer.v), their
    senders (sender.go), the AddMessages requests travelling between them, and the clients. *)
From stdpp Require Import gmap.
From Verif.Base Require Import Base.
From Verif.Model Require Import Topology Shuffle Onion Mixer Rounds.

(** A DirectCall of AddMessages: who makes it ([None]: a client), to which host, and the request
    (sender.go:51). *)
Record call := mkCall { cl_from : option string; cl_to : string; cl_rq : AddRequest }.

(** [sy_srv]: the Mixers object of every server for the round.  [sy_queue]: for an output a sender has
    taken from its channel, the calls it has still to make (the inner loop of sender.go:48-54), first
    one first.  [sy_net]: calls made and not yet handled.  [sy_down]: servers whose sender crashed. *)
Record system := mkSystem {
  sy_srv : gmap string mixers;
  sy_queue : list call;
  sy_net : list call;
  sy_down : gset string
}.

Inductive ylabel :=
| YClient (h : string) (rq : AddRequest)     (* a client calls AddMessages of server h *)
| YDeliver (c : call)                        (* the handler of c enters Mixers.AddMessages *)
| YLose (c : call)                           (* c is lost, or refused because the round is not open *)
| YHost (h : string) (l : label)             (* any other step of h's Mixers object *)
| YTake (h : string) (o : mixoutput) (cs : list call) (* h's sender takes an output *)
| YSend (c : call)                           (* a sender makes its next call *)
| YCrash (h : string) (o : mixoutput).       (* h's sender crashes on an output *)

(** The calls of one iteration of the sender of host h (sender.go:43-56). *)
Definition calls_of (h : string) (cs : list (string * AddRequest)) : list call :=
  (λ e, mkCall (Some h) e.1 e.2) <$> cs.

(** The output as the sender sees it: a failed decryption left a nil slice (mixer.go:104-110). *)
Definition sender_input (o : mixoutput) : list onion := default [] <$> mo_onions o.

Section system.
(** [waits]: a DirectCall returns only when the call was taken ([true] for one round).
    Model/Fleet.v also needs [false]: with several rounds a DirectCall may return early (an answer to another
    call with the same uuid) and a timed out call is given up. *)
Context (waits : bool).
(** The topology, the round, what decrypting with the round key of a host does, and the numbers of
    workers and channel capacities of the hosts. *)
Context (t : topology) (round : Z) (peel : string → onion → option (option onion))
        (workers taskCap outCap : string → nat).

Definition hstep (h : string) : mixers → label → mixers → Prop :=
  step (peel h) (workers h) (taskCap h) (outCap h).

(** The steps of a Mixers object that are neither a call's arrival nor the sender's receive. *)
Definition own_label (l : label) : Prop :=
  match l with LAdd _ | LRecv _ => False | _ => True end.

(** The sender of h is not in the middle of the calls for an earlier output: DirectCall returns when
    the call was answered (client.go:216-223), so it has no call queued or travelling.  (The model
    lets it go on when the handler has taken the request, without waiting for the answer: more
    schedules than the code has.) *)
Definition sender_idle (s : system) (h : string) : Prop :=
  ∀ c, c ∈ sy_queue s ++ sy_net s → cl_from c ≠ Some h.

Definition up (s : system) (h : string) (m : mixers) : Prop :=
  sy_srv s !! h = Some m ∧ h ∉ sy_down s ∧ mm_panic m = false.

Definition with_srv (s : system) (h : string) (m : mixers) : system :=
  mkSystem (<[h := m]> (sy_srv s)) (sy_queue s) (sy_net s) (sy_down s).

Inductive ystepg : system → ylabel → system → Prop :=
| y_client s h rq :
    ystepg s (YClient h rq) (mkSystem (sy_srv s) (sy_queue s) (sy_net s ++ [mkCall None h rq]) (sy_down s))
(* server.go:174-184 and mixer.go:192 *)
| y_deliver s n1 c n2 m m' :
    sy_net s = n1 ++ c :: n2 → up s (cl_to c) m →
    hstep (cl_to c) m (LAdd (rq_msgs (cl_rq c))) m' →
    ystepg s (YDeliver c) (mkSystem (<[cl_to c := m']> (sy_srv s)) (sy_queue s) (n1 ++ n2) (sy_down s))
| y_lose s n1 c n2 :
    sy_net s = n1 ++ c :: n2 →
    ystepg s (YLose c) (mkSystem (sy_srv s) (sy_queue s) (n1 ++ n2) (sy_down s))
| y_host s h l m m' :
    up s h m → own_label l → hstep h m l m' →
    ystepg s (YHost h l) (with_srv s h m')
(* sender.go:44-49 *)
| y_take s h o m m' cs :
    up s h m → (waits = true → sender_idle s h) → hstep h m (LRecv o) m' →
    sender_iteration round t h (sender_input o) (mo_sender o) (Some cs) →
    ystepg s (YTake h o (calls_of h cs))
      (mkSystem (<[h := m']> (sy_srv s)) (sy_queue s ++ calls_of h cs) (sy_net s) (sy_down s))
| y_crash s h o m m' :
    up s h m → (waits = true → sender_idle s h) → hstep h m (LRecv o) m' →
    sender_iteration round t h (sender_input o) (mo_sender o) None →
    ystepg s (YCrash h o) (mkSystem (<[h := m']> (sy_srv s)) (sy_queue s) (sy_net s) ({[h]} ∪ sy_down s))
(* sender.go:48-51: the next call, when the previous one is done *)
| y_send s q1 c q2 h m :
    sy_queue s = q1 ++ c :: q2 → cl_from c = Some h → up s h m →
    (waits = true → ∀ c', c' ∈ q1 ++ sy_net s → cl_from c' ≠ Some h) →
    ystepg s (YSend c) (mkSystem (sy_srv s) (q1 ++ q2) (sy_net s ++ [c]) (sy_down s)).

Inductive yrung (s0 : system) : list ylabel → system → Prop :=
| yrun_nil : yrung s0 [] s0
| yrun_snoc tr l s s' : yrung s0 tr s → ystepg s l s' → yrung s0 (tr ++ [l]) s'.

(** NewRound with the same workload map was answered by every server, nothing was sent yet
    (server.go:108-161). *)
Definition round_opened (servers : list string) (w : gmap string Z) (s : system) : Prop :=
  (∀ h, h ∈ servers → ∃ ms m, hosted t h ms ∧ NewMixers t ms w = Some m ∧ sy_srv s !! h = Some m) ∧
  (∀ h, h ∉ servers → sy_srv s !! h = None) ∧
  sy_queue s = [] ∧ sy_net s = [] ∧ sy_down s = ∅.

(** server.go:55-74 GetMessages of server h. *)
Definition GetMessages (s : system) (h name : string) (v : list (option onion)) : Prop :=
  ∃ m, sy_srv s !! h = Some m ∧ can_return m name v.

End system.
Notation ystep := (ystepg true).
Notation yrun := (yrung true).
